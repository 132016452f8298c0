From Coq Require Import Reals List Arith Lia Lra Sorted.
From Verif Require Import WienerModel.
Import ListNotations.
Local Open Scope R_scope.

Lemma wupd_same {A} (f : nat -> A) a v : wupd f a v a = v.
Proof. unfold wupd. now rewrite Nat.eqb_refl. Qed.
Lemma wupd_other {A} (f : nat -> A) a v x : x <> a -> wupd f a v x = f x.
Proof. unfold wupd. intros H. apply Nat.eqb_neq in H. now rewrite H. Qed.

Section W.
Context {V : Type} (vzero : V) (vadd : V -> V -> V) (vscal : R -> V -> V).
Context (N : nat).
Notation warr := (warr V).
Notation w_init := (w_init vzero N).
Notation w_generate := (w_generate vadd vscal N).
Notation w_clean := (w_clean N).

(** ** Specification: the history is a sorted list of (time, value) *)
Definition hst := list (R * V).
Definition sorted (m : hst) : Prop := StronglySorted Rlt (map fst m).

Definition extend (p : R * V) (t : R) (rnd : V) : V :=
  vadd (snd p) (vscal (sqrt (t - fst p)) rnd).
Definition bridge (p q : R * V) (t : R) (rnd : V) : V :=
  vadd (vadd (snd p) (vscal ((t - fst p) / (fst q - fst p))
                        (vadd (snd q) (vscal (-1) (snd p)))))
       (vscal (sqrt ((t - fst p) * (fst q - t) / (fst q - fst p))) rnd).

(** [m'] is [m] with one value inserted at time [t]. *)
Definition inserted (m : hst) (t : R) (rnd : V) (m' : hst) : Prop :=
  exists a p b, m = a ++ p :: b /\
    (forall x, In x a -> fst x < t) /\ fst p < t /\ (forall x, In x b -> t < fst x) /\
    m' = a ++ p :: (t, match b with [] => extend p t rnd | q :: _ => bridge p q t rnd end) :: b.

(** ** Representation *)
Fixpoint links (f : nat -> option nat) (l : list nat) : Prop :=
  match l with
  | [] => True
  | i :: r => match r with
              | [] => f i = Some i
              | j :: _ => f i = Some j /\ links f r
              end
  end.

Lemma links_cons f i j r : links f (i :: j :: r) <-> f i = Some j /\ links f (j :: r).
Proof. reflexivity. Qed.

Record chain (w : warr) (l : list nat) : Prop := {
  c_hd : exists r, l = 0%nat :: r;
  c_nd : NoDup l;
  c_lt : forall i, In i l -> (i < N)%nat;
  c_em : forall i, (i < N)%nat -> ~ In i l -> nextslot w i = None;
  c_lk : links (nextslot w) l;
  c_so : StronglySorted Rlt (map (wtime w) l) }.

Definition pairs (w : warr) (l : list nat) : hst := map (fun i => (wtime w i, wval w i)) l.
Definition rep (w : warr) (m : hst) : Prop := exists l, chain w l /\ m = pairs w l.

Lemma nodup_app_r {A} (a b : list A) : NoDup (a ++ b) -> NoDup b.
Proof. induction a as [|x a IH]; auto. cbn. intros H. inversion H; auto. Qed.

Lemma eta (w : warr) : mkw (nextslot w) (wtime w) (wval w) = w.
Proof. now destruct w. Qed.

Lemma pairs_fst w l : map fst (pairs w l) = map (wtime w) l.
Proof. unfold pairs. rewrite map_map. reflexivity. Qed.

Lemma rep_sorted w m : rep w m -> sorted m.
Proof. intros (l & C & ->). unfold sorted. rewrite pairs_fst. apply C. Qed.

Lemma links_ext f g l : (forall i, In i l -> f i = g i) -> links f l -> links g l.
Proof.
  induction l as [|i [|j r] IH]; intros H L; auto.
  - simpl in *. rewrite <- H; auto.
  - apply links_cons in L. apply links_cons. destruct L as [A B]. split.
    + rewrite <- H; [auto|now left].
    + apply IH; auto. intros k K. apply H. now right.
Qed.

Lemma links_some f l : links f l -> forall i, In i l -> f i <> None.
Proof.
  induction l as [|i [|j r] IH]; intros L k K; [easy| |].
  - destruct K as [<-|[]]. simpl in L. congruence.
  - apply links_cons in L. destruct L as [A B]. destruct K as [<-|K]; [congruence|auto].
Qed.

Lemma ss_app (a b : list R) :
  StronglySorted Rlt (a ++ b) <->
  StronglySorted Rlt a /\ StronglySorted Rlt b /\ forall x y, In x a -> In y b -> x < y.
Proof.
  induction a as [|x a IH]; simpl.
  - split; [|tauto]. intros H. repeat split; auto; [constructor|easy].
  - split.
    + intros H. apply StronglySorted_inv in H. destruct H as [H F]. apply IH in H.
      destruct H as (H1 & H2 & H3). rewrite Forall_app in F. destruct F as [F1 F2].
      repeat split; auto.
      * constructor; auto.
      * intros u y [<-|U] Y; [|auto]. rewrite Forall_forall in F2. auto.
    + intros (H1 & H2 & H3). apply StronglySorted_inv in H1. destruct H1 as [H1 F].
      constructor.
      * apply IH. auto.
      * apply Forall_app. split; auto. apply Forall_forall. auto.
Qed.

Lemma ss_cons (x : R) (b : list R) :
  StronglySorted Rlt (x :: b) <-> StronglySorted Rlt b /\ forall y, In y b -> x < y.
Proof.
  split.
  - intros H. apply StronglySorted_inv in H. destruct H as [H F]. rewrite Forall_forall in F. auto.
  - intros [H F]. constructor; auto. now apply Forall_forall.
Qed.

(** ** Initialisation *)
Lemma init_rep w0 t0 : (0 < N)%nat -> rep (w_init w0 t0) [(t0, vzero)].
Proof.
  intros HN. exists [0%nat]. split.
  - split; simpl.
    + eauto.
    + repeat constructor. easy.
    + intros i [<-|[]]. auto.
    + intros i Hi Hn. destruct (Nat.eqb_spec i 0) as [->|]; [exfalso; auto|].
      apply Nat.ltb_lt in Hi. now rewrite Hi.
    + reflexivity.
    + repeat constructor.
  - unfold pairs. simpl. now rewrite !wupd_same.
Qed.

(** ** Search *)
Lemma find_spec (w : warr) t : forall r idx im fuel,
  links (nextslot w) (idx :: r) -> NoDup (idx :: r) ->
  StronglySorted Rlt (map (wtime w) (idx :: r)) ->
  (length (idx :: r) <= fuel)%nat -> wtime w idx <= t ->
  (exists i, In i (idx :: r) /\ wtime w i = t /\ w_find w t fuel idx im = FExists i) \/
  (exists a m b, idx :: r = a ++ m :: b /\ (forall i, In i a -> wtime w i < t) /\
     wtime w m < t /\ (forall i, In i b -> t < wtime w i) /\
     w_find w t fuel idx im = FBetween m (hd_error b)).
Proof.
  induction r as [|nx r IH]; intros idx im fuel L ND S F Ht;
    (destruct fuel as [|fuel]; [simpl in F; lia|]); cbn [w_find];
    (destruct (Req_EM_T (wtime w idx) t) as [E|E];
      [left; exists idx; split; [now left|auto]|]);
    (destruct (Rlt_dec (wtime w idx) t) as [Lt|Lt]; [|exfalso; lra]).
  - simpl in L. rewrite L. destruct (Rlt_dec t (wtime w idx)); [exfalso; lra|].
    rewrite Nat.eqb_refl. right. exists [], idx, []. repeat split; auto; easy.
  - apply links_cons in L. destruct L as [L1 L2]. rewrite L1.
    assert (S' := S). cbn [map] in S'. apply ss_cons in S'. destruct S' as [S1 S2].
    destruct (Rlt_dec t (wtime w nx)) as [G|G].
    + right. exists [], idx, (nx :: r). repeat split; auto; try easy.
      intros i [<-|I]; auto. apply ss_cons in S1. destruct S1 as [_ S3].
      specialize (S3 (wtime w i) (in_map _ _ _ I)). lra.
    + inversion ND as [|? ? Nin ND']; subst.
      destruct (Nat.eqb_spec nx idx) as [->|Ne]; [exfalso; apply Nin; now left|].
      destruct (IH nx idx fuel L2 ND' S1) as [(i & I1 & I2 & I3)|(a & m & b & B1 & B2 & B3 & B4 & B5)].
      * simpl in *; lia.
      * lra.
      * left. exists i. split; [now right|auto].
      * right. exists (idx :: a), m, b. rewrite B1. repeat split; auto.
        intros i [<-|I]; auto.
Qed.

(** ** Empty slot *)
Lemma empty_spec (w : warr) : forall fuel i,
  let e := w_empty w i fuel in
  ((i <= e < i + fuel)%nat /\ nextslot w e = None) \/
  (e = 0%nat /\ forall j, (i <= j < i + fuel)%nat -> nextslot w j <> None).
Proof.
  induction fuel as [|fuel IH]; intros i; cbn [w_empty].
  - right. split; auto. intros; lia.
  - destruct (nextslot w i) as [x|] eqn:E.
    + destruct (IH (S i)) as [[A B]|[A B]]; [left|right].
      * split; auto. lia.
      * split; auto. intros j Hj. destruct (Nat.eq_dec j i) as [->|]; [congruence|].
        apply B. lia.
    + left. split; [lia|auto].
Qed.

Lemma links_insert f e a m b :
  NoDup (a ++ m :: b) -> ~ In e (a ++ m :: b) -> links f (a ++ m :: b) ->
  links (wupd (wupd f e (Some (match b with [] => e | j :: _ => j end))) m (Some e))
        (a ++ m :: e :: b).
Proof.
  set (g := wupd _ _ _). intros ND Ne.
  assert (Gm : g m = Some e) by (unfold g; apply wupd_same).
  assert (Ge : g e = Some (match b with [] => e | j :: _ => j end)).
  { unfold g. rewrite wupd_other; [apply wupd_same|]. intros ->. apply Ne. apply in_elt. }
  assert (Go : forall i, i <> e -> i <> m -> g i = f i).
  { intros i I1 I2. unfold g. now rewrite !wupd_other by auto. }
  clearbody g. induction a as [|i a IH].
  - intros L. cbn [app] in *. apply links_cons. split; auto.
    inversion ND as [|? ? Nm ND']; subst.
    assert (Le : links f b -> links g b).
    { apply links_ext. intros i I. symmetry. apply Go; intros ->; [apply Ne; now right|auto]. }
    destruct b as [|j b].
    + exact Ge.
    + apply links_cons. apply links_cons in L. split; [auto|]. apply Le. apply L.
  - intros L. cbn [app] in *. inversion ND as [|? ? Ni ND']; subst.
    assert (Gi : g i = f i).
    { apply Go; intros ->; [apply Ne; now left|]. apply Ni. apply in_elt. }
    assert (IH' := fun L' => IH ND' (fun I => Ne (or_intror I)) L').
    destruct a as [|j a].
    + cbn [app] in *. apply links_cons in L. destruct L as [L1 L2].
      apply links_cons. rewrite Gi. auto.
    + cbn [app] in *. apply links_cons in L. destruct L as [L1 L2].
      apply links_cons. rewrite Gi. auto.
Qed.

Lemma chain_len w l : chain w l -> (length l <= N)%nat.
Proof.
  intros C. rewrite <- (seq_length N 0) at 1. apply NoDup_incl_length; [apply C|].
  intros i I. apply in_seq. pose proof (c_lt _ _ C i I). lia.
Qed.

Lemma map_wupd_out {A B} (f : nat -> A) (h : A -> B) e v l :
  ~ In e l -> map (fun i => h (wupd f e v i)) l = map (fun i => h (f i)) l.
Proof.
  intros H. apply map_ext_in. intros i I. rewrite wupd_other; auto. intros ->. auto.
Qed.

Lemma pairs_out w n e t v l :
  ~ In e l -> pairs (mkw n (wupd (wtime w) e t) (wupd (wval w) e v)) l = pairs w l.
Proof.
  intros H. apply map_ext_in. intros i I. cbn. rewrite !wupd_other; auto; intros ->; auto.
Qed.

Definition first_time (m : hst) : R := match m with [] => 0 | p :: _ => fst p end.

(** ** Generation *)
Lemma generate_rep w m t rnd :
  rep w m -> first_time m <= t ->
  match w_generate w t rnd with
  | GUB => False
  | GErr w' => w' = w /\ length m = N /\ ~ In t (map fst m)
  | GOk w' i =>
      (w' = w /\ In (wtime w i, wval w i) m /\ wtime w i = t) \/
      (~ In t (map fst m) /\ (length m < N)%nat /\
       exists m', rep w' m' /\ inserted m t rnd m' /\
         wtime w' i = t /\ In (t, wval w' i) m')
  end.
Proof.
  intros (l & C & ->) Ht. pose proof C as C0. destruct C as [(r & Hl) ND LT EM LK SO].
  unfold WienerModel.w_generate.
  assert (H0 : wtime w 0 <= t). { subst l. exact Ht. }
  destruct (find_spec w t r 0%nat 0%nat N) as [(i & I1 & I2 & I3)|(a & im & b & B1 & B2 & B3 & B4 & B5)];
    try (rewrite <- Hl; auto; now apply chain_len with w).
  - auto.
  - rewrite I3. left. repeat split; auto. rewrite <- Hl in I1.
    unfold pairs. apply in_map_iff. eauto.
  - rewrite B5. rewrite <- Hl in B1.
    assert (Ht' : ~ In t (map fst (pairs w l))).
    { rewrite pairs_fst, B1, map_app. cbn [map]. intros I. apply in_app_or in I.
      destruct I as [I|[I|I]]; [|lra|]; apply in_map_iff in I; destruct I as (j & J1 & J2).
      - specialize (B2 j J2). lra.
      - specialize (B4 j J2). lra. }
    pose proof (empty_spec w N 0) as ES. cbv zeta in ES.
    assert (S0 : nextslot w 0 <> None).
    { apply (links_some _ _ LK). subst l. now left. }
    destruct (Nat.eqb_spec (w_empty w 0 N) 0) as [E0|E0].
    + repeat split; auto. destruct ES as [[_ ES]|[_ ES]]; [rewrite E0 in ES; contradiction|].
      unfold pairs. rewrite map_length. apply Nat.le_antisymm.
      * now apply chain_len with w.
      * rewrite <- (seq_length N 0) at 1. apply NoDup_incl_length; [apply seq_NoDup|].
        intros j J. apply in_seq in J. destruct (in_dec Nat.eq_dec j l) as [Y|Y]; auto.
        exfalso. apply (ES j); [lia|]. apply EM; [lia|auto].
    + destruct ES as [[ES1 ES2]|[ES1 _]]; [|contradiction].
      set (e := w_empty w 0 N) in *. clearbody e.
      assert (Ne : ~ In e l).
      { intros I. now apply (links_some _ _ LK e I). }
      assert (Hlen : (length (pairs w l) < N)%nat).
      { unfold pairs. rewrite map_length.
        assert (length (e :: l) <= N)%nat; [|simpl in *; lia].
        rewrite <- (seq_length N 0) at 1. apply NoDup_incl_length.
        - now constructor.
        - intros j [<-|J]; apply in_seq; [lia|]. specialize (LT j J). lia. }
      set (v := match b with [] => extend (wtime w im, wval w im) t rnd
                | q :: _ => bridge (wtime w im, wval w im) (wtime w q, wval w q) t rnd end).
      set (w' := mkw (wupd (wupd (nextslot w) e (Some (match b with [] => e | j :: _ => j end)))
                        im (Some e)) (wupd (wtime w) e t) (wupd (wval w) e v)).
      assert (G : match hd_error b with
        | None => GOk (mkw (wupd (wupd (nextslot w) e (Some e)) im (Some e))
                   (wupd (wtime w) e t) (wupd (wval w) e
                      (vadd (wval w im) (vscal (sqrt (t - wtime w im)) rnd)))) e
        | Some ip => GOk (mkw (wupd (wupd (nextslot w) e (Some ip)) im (Some e))
                   (wupd (wtime w) e t)
                   (wupd (wval w) e
                      (vadd (vadd (wval w im)
                         (vscal ((t - wtime w im) / (wtime w ip - wtime w im))
                            (vadd (wval w ip) (vscal (-1) (wval w im)))))
                         (vscal (sqrt ((t - wtime w im) * (wtime w ip - t) / (wtime w ip - wtime w im))) rnd)))) e
        end = GOk w' e).
      { unfold w', v. destruct b as [|q b]; reflexivity. }
      cbv zeta. rewrite G. right. split; [auto|]. split; [auto|].
      exists (pairs w a ++ (wtime w im, wval w im) :: (t, v) :: pairs w b). split; [|split].
      * exists (a ++ im :: e :: b).
        assert (Na : ~ In e a) by (intros I; apply Ne; rewrite B1; apply in_or_app; auto).
        assert (Nb : ~ In e b) by (intros I; apply Ne; rewrite B1; apply in_or_app; right; now right).
        assert (Nm : e <> im) by (intros ->; apply Ne; rewrite B1; apply in_elt).
        split.
        -- split.
           ++ destruct a as [|x a]; cbn [app] in *; subst l; injection B1; intros; subst; eauto.
           ++ rewrite B1 in ND, Ne.
              change (a ++ im :: e :: b) with (a ++ [im] ++ e :: b). rewrite app_assoc.
              apply NoDup_Add with (a := e) (l := a ++ im :: b).
              { replace (a ++ im :: b) with ((a ++ [im]) ++ b) by (rewrite <- app_assoc; reflexivity).
                apply Add_app. }
              auto.
           ++ intros j J. destruct (Nat.eq_dec j e) as [->|Nj]; [lia|]. apply LT. rewrite B1.
              apply in_app_or in J. apply in_or_app. destruct J as [J|[J|[J|J]]]; auto.
              ** right; now left.
              ** congruence.
              ** right; now right.
           ++ intros j J1 J2. unfold w'. cbn [nextslot].
              assert (j <> e) by (intros ->; apply J2; apply in_or_app; right; right; now left).
              assert (j <> im) by (intros ->; apply J2; apply in_elt).
              rewrite !wupd_other by auto. apply EM; auto. rewrite B1. intros I. apply J2.
              apply in_app_or in I. apply in_or_app. destruct I as [I|[I|I]]; [now left|congruence|].
              right. right. now right.
           ++ unfold w'. cbn [nextslot]. rewrite B1 in ND, Ne, LK. now apply links_insert.
           ++ unfold w'. cbn [wtime]. rewrite map_app. cbn [map].
              rewrite wupd_same, (wupd_other _ _ _ im) by auto.
              rewrite (map_wupd_out (wtime w) (fun x => x)) by auto.
              rewrite (map_wupd_out (wtime w) (fun x => x)) by auto.
              rewrite B1, map_app in SO. cbn [map] in SO. apply ss_app in SO.
              destruct SO as (S1 & S2 & S3). apply ss_cons in S2. destruct S2 as [S2 S4].
              assert (Ba : forall y, In y (map (wtime w) a) -> y < t).
              { intros y Y. apply in_map_iff in Y. destruct Y as (j & <- & J). auto. }
              assert (Bb : forall y, In y (map (wtime w) b) -> t < y).
              { intros y Y. apply in_map_iff in Y. destruct Y as (j & <- & J). auto. }
              apply ss_app. repeat split; auto.
              ** apply ss_cons. split.
                 --- apply ss_cons. split; auto.
                 --- intros y [<-|Y]; auto.
              ** intros x y X [<-|[<-|Y]]; auto.
                 --- apply S3; auto. now left.
                 --- apply S3; auto. now right.
        -- unfold pairs. rewrite map_app. cbn [map]. unfold w'. cbn [wtime wval].
           rewrite !wupd_same, !(wupd_other _ _ _ im) by auto.
           f_equal; [symmetry; exact (pairs_out w (nextslot w) e t v a Na)|].
           do 2 f_equal. symmetry. exact (pairs_out w (nextslot w) e t v b Nb).
      * exists (pairs w a), (wtime w im, wval w im), (pairs w b). split; [|split; [|split; [|split]]].
        -- rewrite B1. unfold pairs. rewrite map_app. reflexivity.
        -- intros x X. unfold pairs in X. apply in_map_iff in X. destruct X as (j & <- & J). cbn. auto.
        -- exact B3.
        -- intros x X. unfold pairs in X. apply in_map_iff in X. destruct X as (j & <- & J). cbn. auto.
        -- unfold v. destruct b; reflexivity.
      * split; [unfold w'; apply wupd_same|].
        replace (wval w' e) with v by (unfold w'; cbn; now rewrite wupd_same).
        apply in_or_app. right. right. now left.
Qed.

(** ** Cleaning *)
Definition keep (t : R) (m : hst) : hst :=
  filter (fun p => if Rlt_dec (fst p) t then false else true) m.

Lemma drop_spec (w : warr) t : forall r idx nx0 fuel,
  links nx0 (idx :: r) -> NoDup (idx :: r) ->
  (length (idx :: r) < fuel)%nat ->
  (exists i, In i (idx :: r) /\ t <= wtime w i) ->
  StronglySorted Rlt (map (wtime w) (idx :: r)) ->
  exists a j b, idx :: r = a ++ j :: b /\ (forall i, In i a -> wtime w i < t) /\ t <= wtime w j /\
    w_drop (mkw nx0 (wtime w) (wval w)) t fuel idx
      = CRes (mkw (fold_left (fun f i => wupd f i None) a nx0) (wtime w) (wval w)) j false.
Proof.
  induction r as [|nx r IH]; intros idx nx0 fuel L ND F Ex SO;
    (destruct fuel as [|fuel]; [simpl in F; lia|]); cbn [w_drop wtime nextslot wval];
    (destruct (Rlt_dec (wtime w idx) t) as [Lt|Lt]).
  - destruct Ex as (i & [<-|[]] & Hi). lra.
  - exists [], idx, []. repeat split; auto; try easy. lra.
  - apply links_cons in L. destruct L as [L1 L2]. rewrite L1.
    inversion ND as [|? ? Ni ND']; subst.
    destruct (Nat.eqb_spec idx nx) as [->|Ne]; [exfalso; apply Ni; now left|].
    assert (L2' : links (wupd nx0 idx None) (nx :: r)).
    { revert L2. apply links_ext. intros i I. rewrite wupd_other; auto. intros ->. auto. }
    destruct (IH nx (wupd nx0 idx None) fuel L2' ND') as (a & j & b & B1 & B2 & B3 & B4).
    + simpl in *; lia.
    + destruct Ex as (i & [<-|I] & Hi); [lra|eauto].
    + cbn [map] in SO. now apply ss_cons in SO.
    + exists (idx :: a), j, b. rewrite B1. split; [reflexivity|]. split; [|split; auto].
      intros i [<-|I]; auto.
  - exists [], idx, (nx :: r). repeat split; auto; try easy. lra.
Qed.

Lemma fold_none_spec (a : list nat) : forall f i,
  fold_left (fun f i => wupd f i None) a f i
  = if in_dec Nat.eq_dec i a then @None nat else f i.
Proof.
  induction a as [|x a IH]; intros f i; cbn [fold_left]; auto.
  rewrite IH. destruct (in_dec Nat.eq_dec i a) as [I|I].
  - destruct (in_dec Nat.eq_dec i (x :: a)) as [J|J]; auto. exfalso. apply J. now right.
  - destruct (in_dec Nat.eq_dec i (x :: a)) as [[J|J]|J]; [subst; apply wupd_same|contradiction|].
    apply wupd_other. intros ->. apply J. now left.
Qed.

Lemma keep_all t m : (forall x, In x m -> t <= fst x) -> keep t m = m.
Proof.
  unfold keep. induction m as [|x m IH]; intros H; cbn [filter]; auto.
  destruct (Rlt_dec (fst x) t).
  - specialize (H x (or_introl eq_refl)). lra.
  - f_equal. apply IH. intros y Y. apply H. now right.
Qed.
Lemma keep_none t m : (forall x, In x m -> fst x < t) -> keep t m = [].
Proof.
  unfold keep. induction m as [|x m IH]; intros H; cbn [filter]; auto.
  destruct (Rlt_dec (fst x) t) as [L|L].
  - apply IH. intros y Y. apply H. now right.
  - exfalso. apply L. apply H. now left.
Qed.
Lemma keep_app t a b : keep t (a ++ b) = keep t a ++ keep t b.
Proof. apply filter_app. Qed.

Lemma clean_rep w m t :
  rep w m -> (exists x, In x m /\ t <= fst x) ->
  exists w', w_clean w t = Some (w', false) /\ rep w' (keep t m).
Proof.
  intros (l & C & ->) Ex. pose proof C as C0. destruct C as [(r & Hl) ND LT EM LK SO].
  destruct (drop_spec w t r 0%nat (nextslot w) (S N)) as (a & j & b & B1 & B2 & B3 & B4).
  - now rewrite <- Hl.
  - now rewrite <- Hl.
  - rewrite <- Hl. pose proof (chain_len w l C0). lia.
  - destruct Ex as (x & X & Hx). unfold pairs in X. apply in_map_iff in X.
    destruct X as (i & <- & I). rewrite <- Hl. eauto.
  - now rewrite <- Hl.
  - rewrite <- Hl in B1.
    assert (Kp : keep t (pairs w l) = pairs w (j :: b)).
    { rewrite B1. unfold pairs. rewrite map_app, keep_app, keep_none.
      - cbn [app]. apply keep_all.
        rewrite B1, map_app in SO. apply ss_app in SO. destruct SO as (_ & SO & _).
        cbn [map] in SO. apply ss_cons in SO. destruct SO as [_ SO].
        intros x [<-|X]; [exact B3|]. apply in_map_iff in X. destruct X as (i & <- & I). cbn.
        specialize (SO (wtime w i) (in_map _ _ _ I)). lra.
      - intros x X. apply in_map_iff in X. destruct X as (i & <- & I). cbn. auto. }
    rewrite Kp. unfold WienerModel.w_clean.
    rewrite eta in B4. rewrite B4. cbn [negb]. rewrite Bool.andb_true_r.
    destruct a as [|x a].
    + cbn [app] in B1. rewrite Hl in B1. injection B1 as <- <-. cbn [Nat.eqb negb].
      eexists. split; [reflexivity|]. exists l. rewrite <- Hl. split; [|reflexivity].
      cbn [fold_left]. now destruct w.
    + assert (x = 0%nat) as -> by (rewrite Hl in B1; now injection B1).
      assert (Nj : j <> 0%nat).
      { intros ->. rewrite B1 in ND. cbn [app] in ND. inversion ND as [|? ? Q _]; subst.
        apply Q. apply in_elt. }
      apply Nat.eqb_neq in Nj. rewrite Nj. apply Nat.eqb_neq in Nj. cbn [negb].
      assert (NDj : NoDup (j :: b)).
      { rewrite B1 in ND. now apply nodup_app_r in ND. }
      assert (NDa : forall i, In i (0%nat :: a) -> ~ In i (j :: b)).
      { intros i I1 I2. rewrite B1 in ND. clear - ND I1 I2.
        induction (0%nat :: a) as [|y a' IH]; [easy|]. cbn [app] in ND.
        inversion ND as [|? ? Q ND']; subst. destruct I1 as [->|I1]; auto.
        apply Q. apply in_or_app. now right. }
      pose proof (proj1 (NoDup_cons_iff j b) NDj) as [Njb NDb].
      set (f := fold_left _ _ _).
      assert (Fin : forall i, In i (j :: b) -> f i = nextslot w i).
      { intros i I. unfold f. rewrite fold_none_spec.
        destruct (in_dec Nat.eq_dec i (0%nat :: a)) as [Q|Q]; auto. exfalso. now apply (NDa i). }
      assert (Fout : forall i, (i < N)%nat -> ~ In i (j :: b) -> f i = None).
      { intros i I I'. unfold f. rewrite fold_none_spec.
        destruct (in_dec Nat.eq_dec i (0%nat :: a)) as [Q|Q]; auto. apply EM; auto.
        rewrite B1. intros J. apply in_app_or in J. tauto. }
      clearbody f. cbn [nextslot wtime wval].
      assert (LKb : links f (j :: b)).
      { apply links_ext with (f := nextslot w); [symmetry; auto|].
        rewrite B1 in LK. clear - LK. induction (0%nat :: a) as [|y a' IH]; auto.
        apply IH. cbn [app] in LK. destruct (a' ++ j :: b) eqn:E; [destruct a'; discriminate|].
        apply links_cons in LK. apply LK. }
      eexists. split; [reflexivity|].
      assert (N0b : ~ In 0%nat b) by (intros I; apply (NDa 0%nat); [now left|now right]).
      set (g := wupd _ j None).
      assert (Gb : forall i, i <> 0%nat -> i <> j -> g i = f i).
      { intros i I1 I2. unfold g. rewrite wupd_other by auto.
        destruct (wupd f 0%nat (f j) j) as [q|]; [destruct (Nat.eqb q j)|];
          now rewrite !wupd_other by auto. }
      assert (Gj : g j = None) by (unfold g; apply wupd_same).
      assert (G0 : g 0%nat = Some (match b with [] => 0%nat | k :: _ => k end)).
      { unfold g. rewrite wupd_other by auto. rewrite (wupd_other f 0%nat (f j) j) by auto.
        destruct b as [|k b].
        - cbn in LKb. rewrite LKb, Nat.eqb_refl. apply wupd_same.
        - apply links_cons in LKb. destruct LKb as [-> _].
          destruct (Nat.eqb_spec k j) as [->|]; [exfalso; apply Njb; now left|].
          apply wupd_same. }
      clearbody g. exists (0%nat :: b). split; [split|].
      * eauto.
      * now constructor.
      * intros i [<-|I]; [|apply LT; rewrite B1; apply in_or_app; right; now right].
        apply LT. rewrite Hl. now left.
      * intros i I I'. cbn [nextslot].
        destruct (Nat.eq_dec i j) as [->|Q]; auto.
        rewrite Gb; auto.
        -- apply Fout; auto. intros [->|J]; auto. apply I'. now right.
        -- intros ->. apply I'. now left.
      * cbn [nextslot].
        assert (Lb : links f b -> links g b).
        { apply links_ext. intros i I. symmetry. apply Gb; intros ->; auto. }
        destruct b as [|k b]; [exact G0|]. apply links_cons. split; auto.
        apply Lb. apply links_cons in LKb. apply LKb.
      * cbn [wtime map]. rewrite wupd_same.
        rewrite (map_wupd_out (wtime w) (fun x => x)) by auto.
        rewrite B1, map_app in SO. apply ss_app in SO. tauto.
      * unfold pairs. cbn [map wtime wval]. rewrite !wupd_same. f_equal.
        symmetry. exact (pairs_out w (nextslot w) 0%nat (wtime w j) (wval w j) b N0b).
Qed.

(** Cleaning to a time later than every stored time. *)
Lemma drop_late (w : warr) t : forall r idx nx0 fuel,
  links nx0 (idx :: r) -> NoDup (idx :: r) ->
  (length (idx :: r) <= fuel)%nat ->
  (forall i, In i (idx :: r) -> wtime w i < t) ->
  exists a j, idx :: r = a ++ [j] /\ w_drop (mkw nx0 (wtime w) (wval w)) t fuel idx
      = CRes (mkw (fold_left (fun f i => wupd f i None) a nx0) (wtime w) (wval w)) j true.
Proof.
  induction r as [|nx r IH]; intros idx nx0 fuel L ND F Late;
    (destruct fuel as [|fuel]; [simpl in F; lia|]); cbn [w_drop wtime nextslot wval];
    (destruct (Rlt_dec (wtime w idx) t) as [Lt|Lt];
       [|exfalso; specialize (Late idx (or_introl eq_refl)); lra]).
  - cbn in L. rewrite L, Nat.eqb_refl. exists [], idx. auto.
  - apply links_cons in L. destruct L as [L1 L2]. rewrite L1.
    inversion ND as [|? ? Ni ND']; subst.
    destruct (Nat.eqb_spec idx nx) as [->|Ne]; [exfalso; apply Ni; now left|].
    assert (L2' : links (wupd nx0 idx None) (nx :: r)).
    { revert L2. apply links_ext. intros i I. rewrite wupd_other; auto. intros ->. auto. }
    destruct (IH nx (wupd nx0 idx None) fuel L2' ND') as (a & j & B1 & B2).
    + simpl in *; lia.
    + intros i I. apply Late. now right.
    + exists (idx :: a), j. rewrite B1. auto.
Qed.

Lemma clean_late w m t :
  rep w m -> (forall x, In x m -> fst x < t) ->
  exists w', w_clean w t = Some (w', true) /\ ((length m = 1%nat /\ w' = w) \/
     ((2 <= length m)%nat /\ nextslot w' 0 = None /\ forall t' rnd, first_time m < t' -> w_generate w' t' rnd = GUB)).
Proof.
  intros (l & C & ->) Late. pose proof C as C0. destruct C as [(r & Hl) ND LT EM LK SO].
  destruct (drop_late w t r 0%nat (nextslot w) (S N)) as (a & j & B1 & B2).
  - now rewrite <- Hl.
  - now rewrite <- Hl.
  - rewrite <- Hl. pose proof (chain_len w l C0). lia.
  - intros i I. rewrite <- Hl in I. apply (Late (wtime w i, wval w i)).
    unfold pairs. apply in_map_iff. eauto.
  - unfold WienerModel.w_clean.
    rewrite eta in B2. rewrite B2. rewrite Bool.andb_false_r. eexists. split; [reflexivity|].
    rewrite <- Hl in B1.
    destruct a as [|x a].
    + left. cbn [fold_left]. split; [|now destruct w]. rewrite B1. reflexivity.
    + right. assert (x = 0%nat) as -> by (rewrite Hl in B1; now injection B1).
      assert (Z : fold_left (fun f i => wupd f i None) (0%nat :: a) (nextslot w) 0%nat = None).
      { rewrite fold_none_spec. destruct (in_dec Nat.eq_dec 0%nat (0%nat :: a)) as [|Q]; auto.
        exfalso. apply Q. now left. }
      split; [|split].
      * unfold pairs. rewrite map_length, B1, app_length. simpl. lia.
      * exact Z.
      * intros t' rnd Ht. unfold WienerModel.w_generate.
        assert (HN : (0 < N)%nat) by (apply LT; rewrite Hl; now left).
        destruct N as [|n]; [lia|]. cbn [w_find wtime nextslot].
        assert (H0 : wtime w 0%nat < t') by (rewrite Hl in Ht; exact Ht).
        destruct (Req_EM_T (wtime w 0%nat) t'); [exfalso; lra|].
        destruct (Rlt_dec (wtime w 0%nat) t'); [|exfalso; lra].
        now rewrite Z.
Qed.

Lemma clean_early w m t : rep w m -> t <= first_time m -> w_clean w t = Some (w, false).
Proof.
  intros (l & C & ->) Ht. destruct C as [(r & Hl) ND LT EM LK SO]. rewrite Hl in Ht. cbn in Ht.
  unfold WienerModel.w_clean. cbn [w_drop].
  destruct (Rlt_dec (wtime w 0%nat) t); [exfalso; lra|]. reflexivity.
Qed.

(** The same time requested twice: the second call returns the first result. *)
Lemma generate_again w m t r1 r2 w' i :
  rep w m -> first_time m <= t -> w_generate w t r1 = GOk w' i ->
  exists j, w_generate w' t r2 = GOk w' j /\ wtime w' j = t /\ wval w' j = wval w' i.
Proof.
  intros R Ht G.
  assert (H : exists m', rep w' m' /\ first_time m' <= t /\ In (t, wval w' i) m').
  { pose proof (generate_rep w m t r1 R Ht) as Q. rewrite G in Q.
    destruct Q as [(-> & I & E)|(_ & _ & m' & R' & (a & p & b & M1 & M2 & M3 & M4 & M5) & E & I)].
    - exists m. rewrite <- E. rewrite E. rewrite E in I. auto.
    - exists m'. split; auto. split; auto. rewrite M5. destruct a as [|x a]; cbn; [lra|].
      apply Rlt_le, M2. now left. }
  destruct H as (m' & R' & Ht' & I).
  pose proof (generate_rep w' m' t r2 R' Ht') as Q.
  assert (It : In t (map fst m')) by (apply in_map_iff; exists (t, wval w' i); auto).
  destruct (w_generate w' t r2) as [|w2|w2 j]; [easy|tauto|].
  destruct Q as [(-> & J & E)|(Q & _)]; [|tauto].
  exists j. split; auto. split; auto.
  apply rep_sorted in R'. unfold sorted in R'. rewrite E in J. clear - R' I J.
  induction m' as [|x m' IH]; [easy|]. cbn [map] in R'. apply ss_cons in R'. destruct R' as [S1 S2].
  destruct I as [->|I]; destruct J as [J|J]; try subst x; auto.
  - now injection J as ->.
  - cbn in S2. specialize (S2 t (in_map fst _ _ J)). lra.
  - cbn in S2. specialize (S2 t (in_map fst _ _ I)). lra.
Qed.

(** ** Covariance of the stored values *)
Section Cov.
Context (cov : V -> V -> R).
Context (cov_sym : forall a b, cov a b = cov b a)
        (cov_add : forall a b c, cov (vadd a b) c = cov a c + cov b c)
        (cov_scal : forall k a b, cov (vscal k a) b = k * cov a b)
        (cov_zero : forall a, cov vzero a = 0).
Context (xi : nat -> V)
        (xi_orth : forall i j, cov (xi i) (xi j) = if Nat.eqb i j then 1 else 0).

Lemma cov_add_r a b c : cov a (vadd b c) = cov a b + cov a c.
Proof. rewrite cov_sym, cov_add, (cov_sym b), (cov_sym c). reflexivity. Qed.
Lemma cov_scal_r k a b : cov a (vscal k b) = k * cov a b.
Proof. rewrite cov_sym, cov_scal, (cov_sym b). reflexivity. Qed.

(** All histories of generate and clean calls.  The k-th generate call is fed
    the k-th noise.  Generation is never before the first stored time and
    cleaning never after the last, which is how the integrators call them. *)
Inductive history (w0 : warr) (t0 : R) : nat -> warr -> Prop :=
| h_init : history w0 t0 0 (w_init w0 t0)
| h_gen k w t : history w0 t0 k w ->
    (forall m, rep w m -> first_time m <= t) ->
    forall w' i, w_generate w t (xi k) = GOk w' i -> history w0 t0 (S k) w'
| h_gen_err k w t : history w0 t0 k w ->
    (forall m, rep w m -> first_time m <= t) ->
    forall w', w_generate w t (xi k) = GErr w' -> history w0 t0 (S k) w'
| h_clean k w t : history w0 t0 k w ->
    (forall m, rep w m -> exists x, In x m /\ t <= fst x) ->
    forall w' e, w_clean w t = Some (w', e) -> history w0 t0 k w'.

Definition brownian (t0 : R) (m : hst) : Prop :=
  forall x y, In x m -> In y m -> cov (snd x) (snd y) = Rmin (fst x) (fst y) - t0.
Definition fresh (k : nat) (m : hst) : Prop :=
  forall x j, In x m -> (k <= j)%nat -> cov (snd x) (xi j) = 0.

Lemma min_l a b : a <= b -> Rmin a b = a.
Proof. apply Rmin_left. Qed.
Lemma min_r a b : b <= a -> Rmin a b = b.
Proof. apply Rmin_right. Qed.

Lemma inserted_brownian t0 k m t m' :
  sorted m -> (forall x, In x m -> t0 <= fst x) ->
  brownian t0 m -> fresh k m -> inserted m t (xi k) m' ->
  brownian t0 m' /\ fresh (S k) m' /\ (forall x, In x m' -> t0 <= fst x).
Proof.
  intros S T0 B F (a & p & b & -> & Ha & Hp & Hb & ->).
  set (v := match b with [] => _ | _ => _ end).
  assert (Ip : In p (a ++ p :: b)) by apply in_elt.
  assert (Fk : forall x, In x (a ++ p :: b) -> cov (snd x) (xi k) = 0).
  { intros x X. apply F; auto. }
  assert (Kk : cov (xi k) (xi k) = 1) by (rewrite xi_orth, Nat.eqb_refl; reflexivity).
  assert (Hsb : forall x q b', In x (a ++ p :: b) -> b = q :: b' -> fst x < t \/ fst q <= fst x).
  { intros x q b' X ->. apply in_app_or in X. destruct X as [X|[<-|[<-|X]]]; auto.
    - right. lra.
    - right. unfold sorted in S. rewrite map_app in S. apply ss_app in S.
      destruct S as (_ & S & _). cbn [map] in S. apply ss_cons in S. destruct S as [S _].
      apply ss_cons in S. destruct S as [_ S]. apply Rlt_le, S. now apply in_map. }
  assert (Hlt : forall x, In x (a ++ p :: b) -> fst x < t -> fst x <= fst p).
  { intros x X L. apply in_app_or in X. destruct X as [X|[<-|X]]; [|lra|].
    - unfold sorted in S. rewrite map_app in S. apply ss_app in S.
      destruct S as (_ & _ & S). apply Rlt_le, S; [now apply in_map|now left].
    - specialize (Hb x X). lra. }
  assert (Cv : forall x, In x (a ++ p :: b) -> cov v (snd x) = Rmin t (fst x) - t0).
  { intros x X. pose proof (Fk x X) as Fx. rewrite cov_sym in Fx.
    pose proof (B p x Ip X) as Bp. unfold v. destruct b as [|q b'].
    - unfold extend. rewrite cov_add, cov_scal, Fx, Bp.
      assert (fst x < t). { apply in_app_or in X. destruct X as [X|[<-|[]]]; auto. }
      pose proof (Hlt x X H). rewrite !min_r by lra. lra.
    - unfold bridge. rewrite !cov_add, !cov_scal, !cov_add, cov_scal, Fx, Bp.
      assert (Iq : In q (a ++ p :: q :: b')) by (apply in_or_app; right; right; now left).
      rewrite (B q x Iq X).
      assert (Hq : t < fst q) by (apply Hb; now left).
      destruct (Hsb x q b' X eq_refl) as [L|L].
      + pose proof (Hlt x X L). rewrite !min_r by lra. field. lra.
      + rewrite !min_l by lra. field. lra. }
  assert (Cvv : cov v v = t - t0).
  { assert (Fv : cov (xi k) v = cov v (xi k)) by apply cov_sym.
    unfold v in *. destruct b as [|q b'].
    - unfold extend in *. rewrite cov_add, !cov_add_r, !cov_scal, !cov_scal_r, Kk.
      rewrite (cov_sym (xi k)), (Fk p Ip), (B p p Ip Ip), min_l by lra.
      pose proof (sqrt_sqrt (t - fst p)). specialize (H ltac:(lra)). nra.
    - assert (Iq : In q (a ++ p :: q :: b')) by (apply in_or_app; right; right; now left).
      assert (Hq : t < fst q) by (apply Hb; now left).
      unfold bridge. set (c := sqrt _).
      assert (Hc : c * c = (t - fst p) * (fst q - t) / (fst q - fst p)).
      { apply sqrt_sqrt. apply Rmult_le_pos; [nra|]. apply Rlt_le, Rinv_0_lt_compat. lra. }
      rewrite !cov_add, !cov_scal, !cov_add, !cov_scal, !cov_add_r, !cov_scal_r, !cov_add_r, !cov_scal_r, Kk.
      rewrite !(cov_sym (xi k)), (Fk p Ip), (Fk q Iq), (B p p Ip Ip), (B q q Iq Iq), (B p q Ip Iq), (B q p Iq Ip).
      rewrite (min_l (fst p) (fst q)), (min_r (fst q) (fst p)), !(min_l _ _ (Rle_refl _)) by lra.
      match goal with |- ?L = _ => transitivity (L - c * c + c * c); [ring|] end.
      rewrite Hc at 2. clearbody c. clear Hc. field. lra. }
  assert (Fv : forall j, (Datatypes.S k <= j)%nat -> cov v (xi j) = 0).
  { intros j Hj. assert (Kj : cov (xi k) (xi j) = 0).
    { rewrite xi_orth. destruct (Nat.eqb_spec k j); [lia|auto]. }
    assert (Fp : cov (snd p) (xi j) = 0) by (apply F; [auto|lia]).
    unfold v. destruct b as [|q b'].
    - unfold extend. rewrite cov_add, cov_scal, Kj, Fp. ring.
    - assert (Fq : cov (snd q) (xi j) = 0).
      { apply F; [|lia]. apply in_or_app; right; right; now left. }
      unfold bridge. rewrite !cov_add, !cov_scal, !cov_add, cov_scal, Kj, Fp, Fq. ring. }
  clearbody v.
  assert (In' : forall x, In x (a ++ p :: (t, v) :: b) -> In x (a ++ p :: b) \/ x = (t, v)).
  { intros x X. apply in_app_or in X. destruct X as [X|[X|[X|X]]]; auto;
      left; apply in_or_app; auto; right; [now left|now right]. }
  split; [|split].
  - intros x y X Y. apply In' in X. apply In' in Y.
    destruct X as [X| ->]; destruct Y as [Y| ->]; auto; cbn [fst snd].
    + rewrite cov_sym, Rmin_comm. auto.
    + rewrite min_l by lra. auto.
  - intros x j X J. apply In' in X. destruct X as [X| ->]; auto. apply F; auto. lia.
  - intros x X. apply In' in X. destruct X as [X| ->]; auto. cbn.
    pose proof (T0 p Ip). lra.
Qed.

Lemma keep_in t m x : In x (keep t m) -> In x m.
Proof. unfold keep. intros H. apply filter_In in H. tauto. Qed.

Lemma history_inv w0 t0 k w : (0 < N)%nat -> history w0 t0 k w ->
  exists m, rep w m /\ brownian t0 m /\ fresh k m /\ (forall x, In x m -> t0 <= fst x).
Proof.
  intros HN H. induction H as [|k w t H IH Ht w' i G|k w t H IH Ht w' G|k w t H IH Ht w' e G].
  - exists [(t0, vzero)]. split; [now apply init_rep|]. repeat split.
    + intros x y [<-|[]] [<-|[]]. cbn. rewrite cov_zero, min_l by lra. lra.
    + intros x j [<-|[]] _. cbn. apply cov_zero.
    + intros x [<-|[]]. cbn. lra.
  - destruct IH as (m & R & B & F & T).
    pose proof (generate_rep w m t (xi k) R (Ht m R)) as Q. rewrite G in Q.
    destruct Q as [(-> & _)|(_ & _ & m' & R' & I & _)].
    + exists m. split; auto. split; auto. split; auto. intros x j X J. apply F; auto. lia.
    + exists m'. destruct (inserted_brownian t0 k m t m' (rep_sorted _ _ R) T B F I) as (? & ? & ?). auto.
  - destruct IH as (m & R & B & F & T).
    pose proof (generate_rep w m t (xi k) R (Ht m R)) as Q. rewrite G in Q.
    destruct Q as (-> & _). exists m. split; auto. split; auto. split; auto.
    intros x j X J. apply F; auto. lia.
  - destruct IH as (m & R & B & F & T).
    destruct (clean_rep w m t R (Ht m R)) as (w'' & C & R'). rewrite G in C.
    injection C as -> ->. exists (keep t m). split; auto. repeat split.
    + intros x y X Y. apply B; eapply keep_in; eauto.
    + intros x j X J. apply F; auto. eapply keep_in; eauto.
    + intros x X. apply T. eapply keep_in; eauto.
Qed.
End Cov.
End W.
