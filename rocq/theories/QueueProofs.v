From Coq Require Import ZArith List Bool Arith Lia.
From Verif Require Import QueueModel.
Import ListNotations.

Lemma upd_same {A} (f : nat -> A) a v : upd f a v a = v.
Proof. unfold upd. now rewrite Nat.eqb_refl. Qed.
Lemma upd_other {A} (f : nat -> A) a v x : x <> a -> upd f a v x = f x.
Proof. unfold upd. intros H. apply Nat.eqb_neq in H. now rewrite H. Qed.
Lemma upd2_same {A} (f : nat -> nat -> A) a b v : upd2 f a b v a b = v.
Proof. unfold upd2. now rewrite !Nat.eqb_refl. Qed.
Lemma upd2_other {A} (f : nat -> nat -> A) a b v x y :
  x <> a \/ y <> b -> upd2 f a b v x y = f x y.
Proof.
  unfold upd2. intros [H|H]; apply Nat.eqb_neq in H; rewrite H; auto.
  now rewrite andb_false_r.
Qed.

Definition ev_k {D} (e : ev D) : nat :=
  match e with
  | EFetch _ _ k | ESkip _ _ k | EFail _ _ k _ | ELoad _ _ k | EStore _ _ k _ | EFin _ _ k => k
  end.
Definition ev_t {D} (e : ev D) : nat :=
  match e with
  | EFetch t _ _ | ESkip t _ _ | EFail t _ _ _ | ELoad t _ _ | EStore t _ _ _ | EFin t _ _ => t
  end.
(** Everything that happened to marker k, in order. *)
Definition hist {D} (k : nat) (tr : list (ev D)) : list (ev D) :=
  filter (fun e => Nat.eqb (ev_k e) k) tr.
Definition is_fin {D} (e : ev D) : bool := match e with EFin _ _ _ => true | _ => false end.
Definition count_fin {D} (tr : list (ev D)) : nat := length (filter is_fin tr).

Section Proofs.
Context {P D : Type} (n T W : nat) (chk : bool)
  (load : entry P -> @loaded D) (store : D -> entry P -> entry P)
  (sim : D -> D -> bool -> Prop) (qs : nat -> entry P).

Notation sys := (sys P D).
Notation ev := (ev D).
Notation step := (step n T W chk load store sim).
Notation exec := (exec n T W chk load store sim).
Notation outcome := (outcome chk load store sim).
Notation simulated := (simulated sim).

Hypothesis Hid : forall k, k < n -> (0 <= e_id (qs k))%Z.
Hypothesis Hend : chk = true \/ forall k, k < n -> e_endcond (qs k) = 0%Z.

Inductive reach (d0 : D) : D -> Prop :=
| reach_refl : reach d0 d0
| reach_more d d' : reach d0 d -> sim d d' true -> reach d0 d'.

Lemma reach_simulated d0 d : reach d0 d -> forall d', simulated d d' -> simulated d0 d'.
Proof.
  induction 1 as [|d d1 H IH S]; auto.
  intros d' H'. apply IH. econstructor 2; eauto.
Qed.

Definition in_loop (p : pc) (i : nat) : Prop :=
  match p with
  | PFin j _ | PFetch j | PLoad j _ => j = i
  | _ => False
  end.

Definition occ (s : sys) (t i k : nat) : Prop :=
  t < T /\ i < W /\ (0 <= sl_id (slots s t i))%Z /\ sl_index (slots s t i) = Some k
  /\ ~ in_loop (pcs s t) i.

Inductive ph (s : sys) (k : nat) : list ev -> Prop :=
| ph_fresh : ents s k = qs k -> ph s k []
| ph_claimed t i : t < T -> pcs s t = PLoad i k -> ents s k = qs k ->
    ph s k [EFetch t i k]
| ph_skip t i : t < T -> pcs s t = PFin i k -> outcome (qs k) (ents s k) ->
    ph s k [EFetch t i k; ESkip t i k]
| ph_fail t i e : t < T -> pcs s t = PFin i k -> outcome (qs k) (ents s k) ->
    ph s k [EFetch t i k; EFail t i k e]
| ph_live t i : occ s t i k -> ents s k = qs k -> ph s k [EFetch t i k; ELoad t i k]
| ph_stored t i d : t < T -> pcs s t = PFin i k -> outcome (qs k) (ents s k) ->
    ph s k [EFetch t i k; ELoad t i k; EStore t i k d]
| ph_skipped t i : outcome (qs k) (ents s k) ->
    ph s k [EFetch t i k; ESkip t i k; EFin t i k]
| ph_failed t i e : outcome (qs k) (ents s k) ->
    ph s k [EFetch t i k; EFail t i k e; EFin t i k]
| ph_done t i d : outcome (qs k) (ents s k) ->
    ph s k [EFetch t i k; ELoad t i k; EStore t i k d; EFin t i k].

Definition own (t : nat) (h : list ev) : Prop :=
  match h with EFetch t' _ _ :: _ => t' = t | _ => False end.

Definition settled (s : sys) (t j : nat) : Prop :=
  forall i, i < j ->
    sl_running (slots s t i) = true \/ ((sl_id (slots s t i) < 0)%Z /\ n <= nxt s).

Definition slot_ok (k : nat) (sl : slot D) : Prop :=
  exists d0 d, load (qs k) = LOk d0 /\ sl_data sl = Some d /\ e_endcond (qs k) = 0%Z /\
    (if sl_running sl then reach d0 d else simulated d0 d).

Definition pc_ok (s : sys) (tr : list ev) (t : nat) : Prop :=
  match pcs s t with
  | PCheck j => j <= W /\ settled s t j
  | PStore i => i < W /\ settled s t i /\ sl_running (slots s t i) = false
                /\ (0 <= sl_id (slots s t i))%Z
  | PFin i k => i < W /\ settled s t i /\ k < n /\
      (hist k tr = [EFetch t i k; ESkip t i k] \/
       (exists e, hist k tr = [EFetch t i k; EFail t i k e]) \/
       (exists d, hist k tr = [EFetch t i k; ELoad t i k; EStore t i k d]))
  | PFetch i => i < W /\ settled s t i
  | PLoad i k => i < W /\ settled s t i /\ k < nxt s /\ hist k tr = [EFetch t i k]
  | PSim => True
  | PDone => 0 < W -> (forall i, i < W -> (sl_id (slots s t i) < 0)%Z) /\ n <= nxt s
  end.

Definition slots_ok (s : sys) (tr : list ev) (t : nat) : Prop :=
  forall i, i < W ->
    (sl_running (slots s t i) = true ->
       (0 <= sl_id (slots s t i))%Z /\ ~ in_loop (pcs s t) i) /\
    ((0 <= sl_id (slots s t i))%Z -> ~ in_loop (pcs s t) i ->
     exists k, sl_index (slots s t i) = Some k /\ k < n /\
       hist k tr = [EFetch t i k; ELoad t i k] /\ slot_ok k (slots s t i)).

Record Inv (tr : list ev) (s : sys) : Prop := {
  I_ph : forall k, k < n -> ph s k (hist k tr);
  I_nx : forall k, nxt s <= k <-> hist k tr = [];
  I_ov : forall k, n <= k -> k < nxt s -> exists t i, hist k tr = [EFetch t i k];
  I_pc : forall t, t < T -> pc_ok s tr t;
  I_sl : forall t, t < T -> slots_ok s tr t;
  I_fin : fin s = count_fin tr }.

Lemma hist_app k (tr e : list ev) : hist k (tr ++ e) = hist k tr ++ hist k e.
Proof. unfold hist. now rewrite filter_app. Qed.
Lemma hist_same k (tr : list ev) (e : ev) : ev_k e = k -> hist k (tr ++ [e]) = hist k tr ++ [e].
Proof. intros H. rewrite hist_app. unfold hist at 2. simpl. apply Nat.eqb_eq in H. now rewrite H. Qed.
Lemma hist_diff k (tr : list ev) (e : ev) : ev_k e <> k -> hist k (tr ++ [e]) = hist k tr.
Proof.
  intros H. rewrite hist_app. unfold hist at 2. simpl. apply Nat.eqb_neq in H. rewrite H.
  apply app_nil_r.
Qed.

(** Another thread's invariants survive a step that does not touch it. *)
Lemma frame_pc s s' tr tr' t :
  pcs s' t = pcs s t -> (forall i, slots s' t i = slots s t i) -> nxt s <= nxt s' ->
  (forall k, own t (hist k tr) -> hist k tr' = hist k tr) ->
  pc_ok s tr t -> pc_ok s' tr' t.
Proof.
  intros Hp Hs Hn Hh. unfold pc_ok. rewrite Hp.
  assert (St : forall j, settled s t j -> settled s' t j).
  { intros j H i Hi. rewrite Hs. destruct (H i Hi) as [R|[R1 R2]]; auto. right. split; [auto|lia]. }
  destruct (pcs s t) as [j|i|i k|i|i k| |]; auto.
  - intros [? ?]; auto.
  - rewrite !Hs. intuition.
  - intros (A & B & C & H). repeat split; auto.
    rewrite Hh; auto. destruct H as [H|[(e & H)|(d & H)]]; rewrite H; simpl; auto.
  - intros [? ?]; auto.
  - intros (A & B & C & H). repeat split; auto; try lia. rewrite Hh; auto. rewrite H; simpl; auto.
  - intros H Hw. destruct (H Hw) as [A B]. split; [|lia]. intros i Hi. rewrite Hs. auto.
Qed.

Lemma frame_sl s s' tr tr' t :
  pcs s' t = pcs s t -> (forall i, slots s' t i = slots s t i) ->
  (forall k, own t (hist k tr) -> hist k tr' = hist k tr) ->
  slots_ok s tr t -> slots_ok s' tr' t.
Proof.
  intros Hp Hs Hh H i Hi. rewrite !Hs, Hp. destruct (H i Hi) as [A B]. split; auto.
  intros C E. destruct (B C E) as (k & F & G & I & J). exists k. repeat split; auto.
  rewrite Hh; auto. rewrite I; simpl; auto.
Qed.

(** Marker k's phase survives a step that concerns other markers. *)
Lemma frame_ph s s' k h :
  ents s' k = ents s k ->
  (forall t i, t < T -> pcs s t = PLoad i k -> pcs s' t = PLoad i k) ->
  (forall t i, t < T -> pcs s t = PFin i k -> pcs s' t = PFin i k) ->
  (forall t i, occ s t i k -> occ s' t i k) ->
  ph s k h -> ph s' k h.
Proof.
  intros He H1 H2 H3 H. destruct H; try (econstructor; rewrite ?He; eauto; fail).
Qed.

Lemma n_running_0 (s : sys) t :
  n_running W s t = 0 -> forall i, i < W -> sl_running (slots s t i) = false.
Proof.
  unfold n_running. intros H i Hi. destruct (sl_running (slots s t i)) eqn:E; auto.
  exfalso.
  assert (I : In i (filter (fun i => sl_running (slots s t i)) (seq 0 W))).
  { apply filter_In. split; auto. apply in_seq. lia. }
  destruct (filter (fun i => sl_running (slots s t i)) (seq 0 W)); [easy|discriminate].
Qed.

Ltac up := rewrite ?upd_same, ?upd2_same in *.

Lemma inv_init : Inv [] (init qs).
Proof.
  split; simpl.
  - intros k Hk. constructor; simpl; auto.
  - intros k. split; auto. lia.
  - intros k Hk. lia.
  - intros t Ht. unfold pc_ok. simpl. split; [lia|]. intros i Hi. lia.
  - intros t Ht i Hi. simpl. split; [discriminate|]. lia.
  - reflexivity.
Qed.

(** Steps of thread t that touch no queue entry and produce no event. *)
Lemma inv_quiet tr s s' t :
  Inv tr s -> t < T ->
  nxt s' = nxt s -> fin s' = fin s -> ents s' = ents s ->
  (forall t', t' <> t -> pcs s' t' = pcs s t') ->
  (forall t' i, t' <> t -> slots s' t' i = slots s t' i) ->
  (forall i k, k < n -> pcs s t <> PLoad i k) -> (forall i k, pcs s t <> PFin i k) ->
  (forall i k, occ s t i k -> occ s' t i k) ->
  pc_ok s' tr t -> slots_ok s' tr t ->
  Inv tr s'.
Proof.
  intros I Ht Hn Hf He Hp Hs N1 N2 Ho Hpc Hsl. destruct I as [Iph Inx Iov Ipc Isl Ifin]. split.
  - intros k Hk. apply (frame_ph s s').
    + now rewrite He.
    + intros t' i Ht' E. rewrite Hp; auto. intros ->. now apply (N1 i k).
    + intros t' i Ht' E. rewrite Hp; auto. intros ->. now apply (N2 i k).
    + intros t' i O. destruct (Nat.eq_dec t' t) as [->|N]; [auto|].
      unfold occ in *. rewrite Hp, !Hs by auto. exact O.
    + auto.
  - intros k. rewrite Hn. auto.
  - intros k Hk. rewrite Hn. auto.
  - intros t' Ht'. destruct (Nat.eq_dec t' t) as [->|N]; auto.
    apply (frame_pc s s' tr tr); auto. lia.
  - intros t' Ht'. destruct (Nat.eq_dec t' t) as [->|N]; auto.
    apply (frame_sl s s' tr tr); auto.
  - now rewrite Hf.
Qed.

(** Steps of thread t producing one event about a marker that t owns (or takes). *)
Lemma inv_event tr s s' t e :
  Inv tr s -> t < T -> ev_t e = t ->
  (hist (ev_k e) tr = [] \/ own t (hist (ev_k e) tr)) ->
  nxt s <= nxt s' ->
  (forall k, k <> ev_k e -> nxt s <= k -> nxt s' <= k) -> ev_k e < nxt s' ->
  fin s' = fin s + (if is_fin e then 1 else 0) ->
  (forall k, k <> ev_k e -> ents s' k = ents s k) ->
  (forall t', t' <> t -> pcs s' t' = pcs s t') ->
  (forall t' i, t' <> t -> slots s' t' i = slots s t' i) ->
  (forall i k, k < n -> k <> ev_k e -> pcs s t <> PLoad i k) ->
  (forall i k, k <> ev_k e -> pcs s t <> PFin i k) ->
  (forall i k, k <> ev_k e -> occ s t i k -> occ s' t i k) ->
  (ev_k e < n -> ph s' (ev_k e) (hist (ev_k e) (tr ++ [e]))) ->
  (n <= ev_k e -> exists t' i, hist (ev_k e) (tr ++ [e]) = [EFetch t' i (ev_k e)]) ->
  pc_ok s' (tr ++ [e]) t -> slots_ok s' (tr ++ [e]) t ->
  Inv (tr ++ [e]) s'.
Proof.
  intros I Ht Et Hown Hn Hnk Hlt Hf He Hp Hs N1 N2 Ho Hphk Hovk Hpc Hsl.
  destruct I as [Iph Inx Iov Ipc Isl Ifin].
  assert (Hh : forall t', t' <> t -> forall k, own t' (hist k tr) -> hist k (tr ++ [e]) = hist k tr).
  { intros t' N k O. destruct (Nat.eq_dec (ev_k e) k) as [<-|Nk].
    - exfalso. destruct Hown as [E|E].
      + rewrite E in O. exact O.
      + destruct (hist (ev_k e) tr) as [|[] ?]; simpl in *; congruence.
    - now apply hist_diff. }
  split.
  - intros k Hk. destruct (Nat.eq_dec k (ev_k e)) as [->|Nk]; [auto|].
    rewrite hist_diff by auto. apply (frame_ph s s').
    + auto.
    + intros t' i Ht' E. rewrite Hp; auto. intros ->. now apply (N1 i k).
    + intros t' i Ht' E. rewrite Hp; auto. intros ->. now apply (N2 i k).
    + intros t' i O. destruct (Nat.eq_dec t' t) as [->|N]; [auto|].
      unfold occ in *. rewrite Hp, !Hs by auto. exact O.
    + auto.
  - intros k. destruct (Nat.eq_dec k (ev_k e)) as [->|Nk].
    + split; [lia|]. rewrite hist_same by reflexivity. intros E. now apply app_eq_nil in E.
    + rewrite hist_diff by auto. rewrite <- Inx. split; [lia|auto].
  - intros k Hk Hlk. destruct (Nat.eq_dec k (ev_k e)) as [->|Nk]; [auto|].
    rewrite hist_diff by auto. apply Iov; auto.
    destruct (le_lt_dec (nxt s) k); auto. specialize (Hnk k Nk). lia.
  - intros t' Ht'. destruct (Nat.eq_dec t' t) as [->|N]; auto.
    apply (frame_pc s s' tr); auto. exact (Hh t' N).
  - intros t' Ht'. destruct (Nat.eq_dec t' t) as [->|N]; auto.
    apply (frame_sl s s' tr); auto. exact (Hh t' N).
  - rewrite Hf, Ifin. unfold count_fin. rewrite filter_app, app_length. simpl.
    destruct (is_fin e); reflexivity.
Qed.

Lemma hist_lt tr s k : Inv tr s -> hist k tr <> [] -> k < nxt s.
Proof.
  intros I H. destruct (le_lt_dec (nxt s) k); auto. exfalso. apply H. now apply (I_nx tr s I).
Qed.

Lemma settled_S s t j :
  settled s t j -> (sl_running (slots s t j) = true \/ ((sl_id (slots s t j) < 0)%Z /\ n <= nxt s)) ->
  settled s t (S j).
Proof.
  intros H H' i Hi. destruct (Nat.eq_dec i j) as [->|N]; auto. apply H. lia.
Qed.

Lemma inv_step tr s e s' : Inv tr s -> step s e s' -> Inv (tr ++ e) s'.
Proof.
  intros I H. pose proof I as I0. destruct I as [Iph Inx Iov Ipc Isl Ifin].
  destruct H as
    [s t i Ht Hpc Hi | s t Ht Hpc | s t i k d Ht Hpc Hix Hk Hd | s t i k Ht Hpc
    | s t i Ht Hpc | s t i k Ht Hpc Hk | s t i k Ht Hpc Hk Hc He
    | s t i k e Ht Hpc Hk Hc Hl | s t i k e Ht Hpc Hk Hc Hl
    | s t i k d Ht Hpc Hk Hc Hl | s t new Ht Hpc Hsim];
    pose proof (Ipc t Ht) as Hok; unfold pc_ok in Hok; rewrite Hpc in Hok;
    pose proof (Isl t Ht) as Hsl.
  - (* check *)
    rewrite app_nil_r. destruct Hok as [_ Hst].
    assert (Sl : slots_ok (goto s t (check n s t i)) tr t).
    { intros j Hj. unfold goto. cbn [pcs slots]. rewrite upd_same.
      destruct (Hsl j Hj) as [A B]. rewrite Hpc in A, B. cbn [in_loop] in A, B.
      unfold check. destruct (Hsl i Hi) as [A' B']. rewrite Hpc in A', B'. cbn [in_loop] in A', B'.
      destruct (sl_running (slots s t i)) eqn:ER; cbn [negb andb].
      - destruct (A' eq_refl) as [A1 _]. destruct (Z.ltb_spec (sl_id (slots s t i)) 0); [lia|].
        cbn [andb in_loop]. auto.
      - destruct (Z.leb_spec 0 (sl_id (slots s t i))); cbn [in_loop]; auto.
        destruct (Z.ltb_spec (sl_id (slots s t i)) 0); [|lia]. cbn [andb].
        destruct (Nat.ltb_spec (nxt s) n); cbn [in_loop]; auto.
        split.
        + intros R. destruct (A R) as [C E]. split; auto. intros <-. lia.
        + intros C E. destruct (B C (fun x => x)) as (k & K). eauto. }
    apply (inv_quiet tr s _ t); auto.
    + intros t' N. cbn. now apply upd_other.
    + intros j k _. congruence.
    + intros j k. congruence.
    + intros j k (O1 & O2 & O3 & O4 & O5). unfold occ, goto. cbn [pcs slots]. rewrite upd_same.
      repeat split; auto. unfold check.
      destruct (_ && _)%bool; cbn [in_loop]; auto.
      destruct (Z.ltb_spec (sl_id (slots s t i)) 0); cbn [andb in_loop]; auto.
      destruct (Nat.ltb _ _); cbn [in_loop]; auto. intros <-. lia.
    + unfold pc_ok. unfold goto at 1. cbn [pcs]. rewrite upd_same. unfold check.
      destruct (sl_running (slots s t i)) eqn:ER; cbn [negb andb].
      * destruct (Hsl i Hi) as [A _]. destruct (A ER) as [A1 _].
        destruct (Z.ltb_spec (sl_id (slots s t i)) 0); [lia|]. cbn [andb].
        split; [lia|]. apply settled_S; auto.
      * destruct (Z.leb_spec 0 (sl_id (slots s t i))); auto.
        destruct (Z.ltb_spec (sl_id (slots s t i)) 0); [|lia]. cbn [andb].
        destruct (Nat.ltb_spec (nxt s) n); auto.
        split; [lia|]. apply settled_S; auto.
  - (* end *)
    rewrite app_nil_r. destruct Hok as [_ Hst].
    apply (inv_quiet tr s _ t); auto.
    + intros t' N. cbn. now apply upd_other.
    + intros j k _. congruence.
    + intros j k. congruence.
    + intros j k (O1 & O2 & O3 & O4 & O5). unfold occ, goto. cbn [pcs slots]. rewrite upd_same.
      repeat split; auto. destruct (Nat.ltb _ _); cbn; auto.
    + unfold pc_ok, goto. cbn [pcs slots nxt]. rewrite upd_same.
      destruct (Nat.ltb_spec 0 (n_running W s t)) as [L|L]; auto.
      intros HW. assert (Z0 : n_running W s t = 0) by lia.
      pose proof (n_running_0 s t Z0) as NR. split.
      * intros i Hi. destruct (Hst i Hi) as [R|[R _]]; auto. rewrite NR in R by auto. discriminate.
      * destruct (Hst 0 HW) as [R|[_ R]]; auto. rewrite NR in R by auto. discriminate.
    + intros j Hj. unfold goto. cbn [pcs slots]. rewrite upd_same.
      destruct (Hsl j Hj) as [A B]. rewrite Hpc in A, B. cbn [in_loop] in A, B.
      destruct (Nat.ltb _ _); cbn [in_loop]; auto.
  - (* store *)
    destruct Hok as (Hi & Hst & Hr & Hge).
    destruct (Hsl i Hi) as [_ B]. rewrite Hpc in B. cbn [in_loop] in B.
    destruct (B Hge (fun x => x)) as (k' & E1 & _ & Hh & (d0 & d' & Hl & Hd' & Hz & Hsim)).
    rewrite Hix in E1. injection E1 as <-. rewrite Hd in Hd'. injection Hd' as <-.
    rewrite Hr in Hsim.
    assert (He : ents s k = qs k).
    { pose proof (Iph k Hk) as Pk. rewrite Hh in Pk. inversion Pk. auto. }
    apply (inv_event tr s _ t (EStore t i k d)); auto; cbn [ev_k is_fin ents nxt fin pcs slots].
    + right. rewrite Hh. reflexivity.
    + apply (hist_lt tr); auto. rewrite Hh. discriminate.
    + intros k' N. now apply upd_other.
    + intros t' N. now apply upd_other.
    + intros j k' _ _. congruence.
    + intros j k' _. congruence.
    + intros j k' N (O1 & O2 & O3 & O4 & O5). unfold occ. cbn [pcs slots]. up.
      repeat split; auto. cbn [in_loop]. intros <-. congruence.
    + intros _. rewrite hist_same, Hh by reflexivity. apply ph_stored; cbn [pcs ents]; up; auto.
      rewrite He. econstructor 3; eauto.
    + lia.
    + unfold pc_ok. cbn [pcs]. up. repeat split; auto.
      right. right. exists d. now rewrite hist_same, Hh by reflexivity.
    + intros j Hj. cbn [pcs slots]. up. destruct (Hsl j Hj) as [A B'].
      rewrite Hpc in A, B'. cbn [in_loop] in A, B'. cbn [in_loop]. split.
      * intros R. destruct (A R) as [A1 _]. split; auto. intros <-. congruence.
      * intros C N. destruct (B' C (fun x => x)) as (k2 & F1 & F2 & F3 & F4).
        exists k2. repeat split; auto. rewrite hist_diff; auto. cbn. intros <-. congruence.
  - (* fin *)
    destruct Hok as (Hi & Hst & Hk & Hh).
    assert (Hout : outcome (qs k) (ents s k)).
    { pose proof (Iph k Hk) as Pk.
      destruct Hh as [Hh|[(x & Hh)|(x & Hh)]]; rewrite Hh in Pk; inversion Pk; auto. }
    apply (inv_event tr s _ t (EFin t i k)); auto; cbn [ev_k is_fin ents nxt fin pcs slots].
    + right. destruct Hh as [Hh|[(x & Hh)|(x & Hh)]]; rewrite Hh; reflexivity.
    + apply (hist_lt tr); auto. destruct Hh as [Hh|[(x & Hh)|(x & Hh)]]; rewrite Hh; discriminate.
    + lia.
    + intros t' N. now apply upd_other.
    + intros j k' _ _. congruence.
    + intros j k' N. congruence.
    + intros j k' N (O1 & O2 & O3 & O4 & O5). unfold occ. cbn [pcs slots]. up.
      rewrite Hpc in O5. repeat split; auto.
    + intros _. rewrite hist_same by reflexivity.
      destruct Hh as [Hh|[(x & Hh)|(x & Hh)]]; rewrite Hh; cbn [app];
        [apply ph_skipped|apply ph_failed|apply ph_done]; auto.
    + lia.
    + unfold pc_ok. cbn [pcs]. up. auto.
    + intros j Hj. cbn [pcs slots]. up. destruct (Hsl j Hj) as [A B'].
      rewrite Hpc in A, B'. cbn [in_loop] in A, B'. cbn [in_loop]. split; auto.
      intros C N. destruct (B' C N) as (k2 & F1 & F2 & F3 & F4).
      exists k2. repeat split; auto. rewrite hist_diff; auto. cbn. intros <-.
      destruct Hh as [Hh|[(x & Hh)|(x & Hh)]]; congruence.
  - (* fetch *)
    destruct Hok as (Hi & Hst).
    assert (Hh : hist (nxt s) tr = []) by (apply Inx; lia).
    apply (inv_event tr s _ t (EFetch t i (nxt s))); auto; cbn [ev_k is_fin ents nxt fin pcs slots].
    + lia.
    + lia.
    + intros t' N. now apply upd_other.
    + intros j k' _ _. congruence.
    + intros j k' N. congruence.
    + intros j k' N (O1 & O2 & O3 & O4 & O5). unfold occ. cbn [pcs slots]. up.
      rewrite Hpc in O5. repeat split; auto.
    + intros L. rewrite hist_same, Hh by reflexivity. cbn [app].
      apply ph_claimed; cbn [pcs ents]; up; auto.
      pose proof (Iph _ L) as Pk. rewrite Hh in Pk. now inversion Pk.
    + intros L. rewrite hist_same, Hh by reflexivity. cbn [app]. eauto.
    + unfold pc_ok. cbn [pcs nxt]. up. repeat split; auto.
      * intros j Hj. destruct (Hst j Hj) as [R|[R1 R2]]; auto. right. split; auto. cbn. lia.
      * now rewrite hist_same, Hh by reflexivity.
    + intros j Hj. cbn [pcs slots]. up. destruct (Hsl j Hj) as [A B'].
      rewrite Hpc in A, B'. cbn [in_loop] in A, B'. cbn [in_loop]. split; auto.
      intros C N. destruct (B' C N) as (k2 & F1 & F2 & F3 & F4).
      exists k2. repeat split; auto. rewrite hist_diff; auto. cbn. intros <-. congruence.
  - (* dummy *)
    rewrite app_nil_r. destruct Hok as (Hi & Hst & Hlt & Hh).
    apply (inv_quiet tr s _ t); auto; cbn [ents nxt fin pcs slots]; auto.
    + intros t' N. now apply upd_other.
    + intros t' j N. apply upd2_other. auto.
    + intros j k' L. rewrite Hpc. intros [= <- <-]. lia.
    + intros j k'. congruence.
    + intros j k' (O1 & O2 & O3 & O4 & O5). rewrite Hpc in O5. cbn [in_loop] in O5.
      unfold occ. cbn [pcs slots]. rewrite upd_same, upd2_other by auto. cbn [in_loop]. intuition.
    + unfold pc_ok. cbn [pcs]. up. split; [lia|].
      apply settled_S.
      * intros j Hj. unfold settled in Hst. cbn [slots nxt]. rewrite upd2_other by lia. apply Hst. lia.
      * cbn [slots nxt]. up. cbn. right. lia.
    + intros j Hj. cbn [pcs slots]. rewrite upd_same. cbn [in_loop].
      destruct (Nat.eq_dec j i) as [->|N].
      * up. cbn. split; [discriminate|lia].
      * rewrite upd2_other by auto. destruct (Hsl j Hj) as [A B'].
        rewrite Hpc in A, B'. cbn [in_loop] in A, B'. split.
        -- intros R. destruct (A R); auto.
        -- intros C _. apply B'; auto.
  - (* skip *)
    destruct Hok as (Hi & Hst & Hlt & Hh).
    assert (Hq : ents s k = qs k).
    { pose proof (Iph _ Hk) as Pk. rewrite Hh in Pk. now inversion Pk. }
    apply (inv_event tr s _ t (ESkip t i k)); auto; cbn [goto ev_k is_fin ents nxt fin pcs slots]; auto.
    + right. rewrite Hh. reflexivity.
    + intros t' N. now apply upd_other.
    + intros j k' _ N. congruence.
    + intros j k' N. congruence.
    + intros j k' N (O1 & O2 & O3 & O4 & O5). unfold occ. cbn [goto pcs slots]. up.
      rewrite Hpc in O5. repeat split; auto.
    + intros _. rewrite hist_same, Hh by reflexivity. cbn [app].
      apply ph_skip; cbn [goto pcs ents]; up; auto. rewrite Hq in *. now constructor.
    + lia.
    + unfold pc_ok. cbn [goto pcs]. up. repeat split; auto. left. now rewrite hist_same, Hh by reflexivity.
    + intros j Hj. cbn [goto pcs slots]. up. destruct (Hsl j Hj) as [A B'].
      rewrite Hpc in A, B'. cbn [in_loop] in A, B'. cbn [in_loop]. split; auto.
      intros C N. destruct (B' C N) as (k2 & F1 & F2 & F3 & F4).
      exists k2. repeat split; auto. rewrite hist_diff; auto. cbn. intros <-. congruence.
  - (* early error *)
    destruct Hok as (Hi & Hst & Hlt & Hh).
    assert (Hq : ents s k = qs k).
    { pose proof (Iph _ Hk) as Pk. rewrite Hh in Pk. now inversion Pk. }
    apply (inv_event tr s _ t (EFail t i k e)); auto; cbn [ev_k is_fin ents nxt fin pcs slots]; auto.
    + right. rewrite Hh. reflexivity.
    + intros k' N. now apply upd_other.
    + intros t' N. now apply upd_other.
    + intros j k' _ N. congruence.
    + intros j k' N. congruence.
    + intros j k' N (O1 & O2 & O3 & O4 & O5). unfold occ. cbn [goto pcs slots]. up.
      rewrite Hpc in O5. repeat split; auto.
    + intros _. rewrite hist_same, Hh by reflexivity. cbn [app].
      apply ph_fail; cbn [pcs ents]; up; auto. rewrite Hq in *. constructor; auto.
    + lia.
    + unfold pc_ok. cbn [pcs]. up. repeat split; auto. right. left. exists e.
      now rewrite hist_same, Hh by reflexivity.
    + intros j Hj. cbn [pcs slots]. up. destruct (Hsl j Hj) as [A B'].
      rewrite Hpc in A, B'. cbn [in_loop] in A, B'. cbn [in_loop]. split; auto.
      intros C N. destruct (B' C N) as (k2 & F1 & F2 & F3 & F4).
      exists k2. repeat split; auto. rewrite hist_diff; auto. cbn. intros <-. congruence.
  - (* late error *)
    destruct Hok as (Hi & Hst & Hlt & Hh).
    assert (Hq : ents s k = qs k).
    { pose proof (Iph _ Hk) as Pk. rewrite Hh in Pk. now inversion Pk. }
    apply (inv_event tr s _ t (EFail t i k e)); auto; cbn [ev_k is_fin ents nxt fin pcs slots]; auto.
    + right. rewrite Hh. reflexivity.
    + intros k' N. now apply upd_other.
    + intros t' N. now apply upd_other.
    + intros t' j N. apply upd2_other; auto.
    + intros j k' _ N. congruence.
    + intros j k' N. congruence.
    + intros j k' N (O1 & O2 & O3 & O4 & O5). rewrite Hpc in O5. cbn [in_loop] in O5.
      unfold occ. cbn [pcs slots]. rewrite upd_same, upd2_other by auto. cbn [in_loop]. intuition.
    + intros _. rewrite hist_same, Hh by reflexivity. cbn [app].
      apply ph_fail; cbn [pcs ents]; up; auto. rewrite Hq in *. constructor; auto.
    + lia.
    + unfold pc_ok. cbn [pcs]. up. repeat split; auto.
      * intros j Hj. cbn [slots nxt]. rewrite upd2_other by lia. apply Hst. lia.
      * right. left. exists e. now rewrite hist_same, Hh by reflexivity.
    + intros j Hj. cbn [pcs slots]. rewrite upd_same. cbn [in_loop].
      destruct (Hsl j Hj) as [A B']. rewrite Hpc in A, B'. cbn [in_loop] in A, B'.
      destruct (Nat.eq_dec j i) as [->|N].
      * up. cbn [sl_running sl_id sl_index]. split.
        -- intros R. destruct (A R) as [_ A2]. exfalso; auto.
        -- intros _ Q. exfalso; auto.
      * rewrite upd2_other by auto. split; auto.
        intros C Q. destruct (B' C Q) as (k2 & F1 & F2 & F3 & F4).
        exists k2. repeat split; auto. rewrite hist_diff; auto. cbn. intros <-. congruence.
  - (* load *)
    destruct Hok as (Hi & Hst & Hlt & Hh).
    assert (Hq : ents s k = qs k).
    { pose proof (Iph _ Hk) as Pk. rewrite Hh in Pk. now inversion Pk. }
    assert (Hz : e_endcond (qs k) = 0%Z).
    { destruct Hend as [E|E]; auto. rewrite <- Hq. auto. }
    rewrite Hq in *. rewrite Hz. cbn [Z.eqb].
    apply (inv_event tr s _ t (ELoad t i k)); auto; cbn [ev_k is_fin ents nxt fin pcs slots]; auto.
    + right. rewrite Hh. reflexivity.
    + intros t' N. now apply upd_other.
    + intros t' j N. apply upd2_other; auto.
    + intros j k' _ N. congruence.
    + intros j k' N. congruence.
    + intros j k' N (O1 & O2 & O3 & O4 & O5). rewrite Hpc in O5. cbn [in_loop] in O5.
      unfold occ. cbn [pcs slots]. rewrite upd_same, upd2_other by auto. cbn [in_loop]. intuition.
    + intros _. rewrite hist_same, Hh by reflexivity. cbn [app].
      apply ph_live; cbn [ents]; auto. unfold occ. cbn [pcs slots]. up.
      cbn [sl_id sl_index in_loop]. intuition.
    + lia.
    + unfold pc_ok. cbn [pcs]. up. split; [lia|].
      apply settled_S.
      * intros j Hj. cbn [slots nxt]. rewrite upd2_other by lia. apply Hst. lia.
      * cbn [slots nxt]. up. cbn. auto.
    + intros j Hj. cbn [pcs slots]. rewrite upd_same. cbn [in_loop].
      destruct (Hsl j Hj) as [A B']. rewrite Hpc in A, B'. cbn [in_loop] in A, B'.
      destruct (Nat.eq_dec j i) as [->|N].
      * up. cbn [sl_running sl_id sl_index]. split.
        -- intros _. auto.
        -- intros _ _. exists k. repeat split; auto.
           ++ now rewrite hist_same, Hh by reflexivity.
           ++ exists d, d. cbn. repeat split; auto. constructor.
      * rewrite upd2_other by auto. split.
        -- intros R. destruct (A R); auto.
        -- intros C _. destruct (B' C (fun Q => N (eq_sym Q))) as (k2 & F1 & F2 & F3 & F4).
           exists k2. repeat split; auto. rewrite hist_diff; auto. cbn. intros <-. congruence.
  - (* simulate *)
    rewrite app_nil_r.
    assert (Hnew : forall i, i < W -> sl_id (new i) = sl_id (slots s t i)
              /\ sl_index (new i) = sl_index (slots s t i)
              /\ (sl_running (new i) = true -> sl_running (slots s t i) = true)).
    { intros i Hi. specialize (Hsim i Hi). destruct (sl_running (slots s t i)) eqn:R.
      - destruct Hsim as (d & d' & r & _ & _ & ->). cbn. auto.
      - rewrite Hsim. cbn. rewrite R. auto. }
    apply (inv_quiet tr s _ t); auto; cbn [ents nxt fin pcs slots]; auto.
    + intros t' N. now apply upd_other.
    + intros t' j N. apply Nat.eqb_neq in N. now rewrite N.
    + intros j k' _. congruence.
    + intros j k'. congruence.
    + intros j k' (O1 & O2 & O3 & O4 & O5). unfold occ. cbn [pcs slots].
      rewrite upd_same, Nat.eqb_refl. apply Nat.ltb_lt in O2 as L. rewrite L. cbn [andb].
      destruct (Hnew j O2) as (N1 & N2 & _). rewrite N1, N2. cbn [in_loop]. intuition.
    + unfold pc_ok. cbn [pcs]. up. split; [lia|]. intros j Hj. lia.
    + intros j Hj. cbn [pcs slots]. rewrite upd_same, Nat.eqb_refl.
      apply Nat.ltb_lt in Hj as L. rewrite L. cbn [andb in_loop].
      destruct (Hsl j Hj) as [A B']. rewrite Hpc in A, B'. cbn [in_loop] in A, B'.
      destruct (Hnew j Hj) as (N1 & N2 & N3). rewrite N1, N2. split; auto.
      intros C _. destruct (B' C (fun x => x)) as (k2 & F1 & F2 & F3 & F4).
      exists k2. repeat split; auto. specialize (Hsim j Hj).
      destruct F4 as (d0 & d & G1 & G2 & G3 & G4).
      destruct (sl_running (slots s t j)) eqn:R.
      * destruct Hsim as (d1 & d' & r & E1 & E2 & ->). rewrite G2 in E1. injection E1 as <-.
        exists d0, d'. cbn. repeat split; auto. destruct r.
        -- econstructor; eauto.
        -- eapply reach_simulated; eauto. now constructor.
      * rewrite Hsim. exists d0, d. rewrite R. auto.
Qed.

Lemma inv_exec tr s : exec (init qs) tr s -> Inv tr s.
Proof.
  induction 1 as [|tr s e s' H IH S]; [apply inv_init|]. eapply inv_step; eauto.
Qed.

(** What may happen to one marker, in order; nothing else ever does. *)
Inductive lifecycle (k : nat) : list ev -> Prop :=
| lc_0 : lifecycle k []
| lc_1 t i : lifecycle k [EFetch t i k]
| lc_2 t i : lifecycle k [EFetch t i k; ESkip t i k]
| lc_3 t i e : lifecycle k [EFetch t i k; EFail t i k e]
| lc_4 t i : lifecycle k [EFetch t i k; ELoad t i k]
| lc_5 t i d : lifecycle k [EFetch t i k; ELoad t i k; EStore t i k d]
| lc_6 h : complete k h -> lifecycle k h
with complete (k : nat) : list ev -> Prop :=
| cp_skip t i : complete k [EFetch t i k; ESkip t i k; EFin t i k]
| cp_fail t i e : complete k [EFetch t i k; EFail t i k e; EFin t i k]
| cp_run t i d : complete k [EFetch t i k; ELoad t i k; EStore t i k d; EFin t i k].

Lemma exec_lifecycle tr s k : exec (init qs) tr s -> k < n -> lifecycle k (hist k tr).
Proof.
  intros E Hk. pose proof (I_ph _ _ (inv_exec _ _ E) k Hk) as H.
  inversion H; try constructor; constructor.
Qed.

Lemma done_all tr s :
  0 < T -> 0 < W -> exec (init qs) tr s -> all_done T s ->
  forall k, k < n -> complete k (hist k tr) /\ outcome (qs k) (ents s k).
Proof.
  intros HT HW E A k Hk. pose proof (inv_exec _ _ E) as I.
  assert (Hn : n <= nxt s).
  { pose proof (I_pc _ _ I 0 HT) as Q. unfold pc_ok in Q. rewrite (A 0 HT) in Q. now apply Q. }
  pose proof (I_ph _ _ I k Hk) as H.
  inversion H as [E0 H1|t i Ht E0 E1 H1|t i Ht E0 E1 H1|t i e Ht E0 E1 H1|t i O E1 H1|t i d Ht E0 E1 H1
    |t i E1 H1|t i e E1 H1|t i d E1 H1]; try (rewrite (A _ Ht) in E0; discriminate); try (split; [constructor|auto]).
  - exfalso. assert (nxt s <= k) by (apply (I_nx _ _ I); auto). lia.
  - exfalso. destruct O as (O1 & O2 & O3 & O4 & O5).
    pose proof (I_pc _ _ I t O1) as Q. unfold pc_ok in Q. rewrite (A t O1) in Q.
    destruct (Q HW) as [Q1 _]. specialize (Q1 i O2). lia.
Qed.

(** ** The finished counter *)
Definition fin_list (tr : list ev) : list nat := map ev_k (filter is_fin tr).
Lemma fin_list_len tr : length (fin_list tr) = count_fin tr.
Proof. apply map_length. Qed.
Lemma fin_list_in tr k : In k (fin_list tr) <-> exists t i, In (EFin t i k) (hist k tr).
Proof.
  unfold fin_list, hist. rewrite in_map_iff. split.
  - intros (e & E & H). apply filter_In in H. destruct H as [H F]. destruct e; try discriminate.
    cbn in E. subst. exists t, i. apply filter_In. split; auto. cbn. apply Nat.eqb_refl.
  - intros (t & i & H). apply filter_In in H. destruct H as [H _].
    exists (EFin t i k). split; auto. apply filter_In. auto.
Qed.
Lemma fin_hist k tr : filter (Nat.eqb k) (fin_list tr) = map ev_k (filter is_fin (hist k tr)).
Proof.
  unfold fin_list, hist. induction tr as [|e tr IH]; auto. cbn [filter].
  destruct (is_fin e) eqn:F; cbn [map filter].
  - rewrite Nat.eqb_sym. destruct (Nat.eqb (ev_k e) k); cbn [filter map]; [rewrite F|]; cbn [map]; congruence.
  - destruct (Nat.eqb (ev_k e) k); cbn [filter map]; [rewrite F|]; auto.
Qed.
Lemma filter_nodup (l : list nat) :
  (forall k, length (filter (Nat.eqb k) l) <= 1) -> NoDup l.
Proof.
  induction l as [|a l IH]; intros H; constructor.
  - intros I. specialize (H a). cbn in H. rewrite Nat.eqb_refl in H. cbn in H.
    assert (In a (filter (Nat.eqb a) l)) as J.
    { apply filter_In. split; auto. apply Nat.eqb_refl. }
    destruct (filter (Nat.eqb a) l); [easy|cbn in H; lia].
  - apply IH. intros k. specialize (H k). cbn in H. destruct (Nat.eqb k a); cbn in H; lia.
Qed.

Lemma fin_list_nodup tr s : exec (init qs) tr s ->
  NoDup (fin_list tr) /\ forall k, In k (fin_list tr) -> k < n.
Proof.
  intros E. pose proof (inv_exec _ _ E) as I. split.
  - apply filter_nodup. intros k. rewrite fin_hist, map_length.
    destruct (le_lt_dec n k) as [L|L].
    + destruct (le_lt_dec (nxt s) k) as [L'|L'].
      * apply (I_nx _ _ I) in L'. rewrite L'. cbn. lia.
      * destruct (I_ov _ _ I k L L') as (t & i & ->). cbn. lia.
    + pose proof (I_ph _ _ I k L) as H. inversion H; cbn; lia.
  - intros k H. apply fin_list_in in H. destruct H as (t & i & H).
    destruct (le_lt_dec n k) as [L|L]; auto. exfalso.
    destruct (le_lt_dec (nxt s) k) as [L'|L'].
    + apply (I_nx _ _ I) in L'. rewrite L' in H. easy.
    + destruct (I_ov _ _ I k L L') as (t' & i' & Q). rewrite Q in H.
      destruct H as [H|[]]; discriminate.
Qed.

Lemma finished_le tr s : exec (init qs) tr s -> fin s <= n.
Proof.
  intros E. pose proof (fin_list_nodup tr s E) as [N L].
  rewrite (I_fin _ _ (inv_exec _ _ E)), <- fin_list_len.
  transitivity (length (seq 0 n)); [|rewrite seq_length; auto].
  apply NoDup_incl_length; auto. intros k H. apply in_seq. specialize (L k H). lia.
Qed.

Lemma finished_eq tr s :
  0 < T -> 0 < W -> exec (init qs) tr s -> all_done T s -> fin s = n.
Proof.
  intros HT HW E A. pose proof (finished_le tr s E) as L.
  pose proof (I_fin _ _ (inv_exec _ _ E)) as F. rewrite <- fin_list_len in F.
  assert (n <= length (fin_list tr)); [|lia].
  rewrite <- (seq_length n 0) at 1. apply NoDup_incl_length; [apply seq_NoDup|].
  intros k H. apply in_seq in H. apply fin_list_in.
  destruct (done_all tr s HT HW E A k ltac:(lia)) as [C _].
  inversion C as [t i H1|t i e H1|t i d H1]; exists t, i; cbn; tauto.
Qed.

(** ** No thread is ever blocked and no access is undefined *)
Definition moved (t : nat) (s s' : sys) : Prop :=
  pcs s' t <> pcs s t /\ forall t', t' <> t -> pcs s' t' = pcs s t'.

Lemma progress tr s t :
  (forall d, exists d' r, sim d d' r) ->
  exec (init qs) tr s -> t < T -> pcs s t <> PDone ->
  exists e s', step s e s' /\ moved t s s'.
Proof.
  intros Tot E Ht ND. pose proof (inv_exec _ _ E) as I.
  pose proof (I_pc _ _ I t Ht) as Q. unfold pc_ok in Q.
  pose proof (I_sl _ _ I t Ht) as S.
  destruct (pcs s t) as [j|i|i k|i|i k| |] eqn:Ep.
  - destruct (Nat.eq_dec j W) as [->|N].
    + do 2 eexists. split; [apply st_end; [exact Ht|exact Ep]|]. split; cbn [goto pcs].
      * rewrite upd_same, Ep. destruct (Nat.ltb _ _); discriminate.
      * intros. now apply upd_other.
    + do 2 eexists. split; [apply st_check; [exact Ht|exact Ep|lia]|]. split; cbn [goto pcs].
      * rewrite upd_same, Ep. unfold check. destruct (_ && _)%bool; [discriminate|].
        destruct (_ && _)%bool; [discriminate|]. intros [= Q']. lia.
      * intros. now apply upd_other.
  - destruct Q as (Hi & _ & Hr & Hge). destruct (S i Hi) as [_ B].
    rewrite Ep in B. destruct (B Hge (fun x => x)) as (k & E1 & E2 & E3 & (d0 & d & _ & E4 & _)).
    do 2 eexists. split; [eapply st_store; eauto|]. split; cbn [pcs].
    + rewrite upd_same, Ep. discriminate.
    + intros. now apply upd_other.
  - do 2 eexists. split; [eapply st_fin; eauto|]. split; cbn [pcs].
    + rewrite upd_same, Ep. discriminate.
    + intros. now apply upd_other.
  - do 2 eexists. split; [eapply st_fetch; eauto|]. split; cbn [pcs].
    + rewrite upd_same, Ep. discriminate.
    + intros. now apply upd_other.
  - destruct (le_lt_dec n k) as [L|L].
    { do 2 eexists. split; [eapply st_dummy; eauto|]. split; cbn [pcs].
      + rewrite upd_same, Ep. discriminate.
      + intros. now apply upd_other. }
    assert (Dc : (chk = true /\ e_endcond (ents s k) <> 0%Z) \/
                 (chk = true -> e_endcond (ents s k) = 0%Z)).
    { destruct chk; [|right; discriminate]. destruct (Z.eq_dec (e_endcond (ents s k)) 0); auto. }
    destruct Dc as [[D1 D2]|D1].
    { do 2 eexists. split; [eapply st_skip; eauto|]. split; cbn [goto pcs].
      + rewrite upd_same, Ep. discriminate.
      + intros. now apply upd_other. }
    destruct (load (ents s k)) as [e|e|d] eqn:El.
    + do 2 eexists. split; [eapply st_early; eauto|]. split; cbn [pcs].
      * rewrite upd_same, Ep. discriminate.
      * intros. now apply upd_other.
    + do 2 eexists. split; [eapply st_late; eauto|]. split; cbn [pcs].
      * rewrite upd_same, Ep. discriminate.
      * intros. now apply upd_other.
    + do 2 eexists. split; [eapply st_load; eauto|]. split; cbn [pcs].
      * rewrite upd_same, Ep. discriminate.
      * intros. now apply upd_other.
  - assert (Hn : exists new : nat -> slot D, forall i, i < W ->
       if sl_running (slots s t i)
       then exists d d' r, sl_data (slots s t i) = Some d /\ sim d d' r /\
            new i = mkslot r (sl_id (slots s t i)) (sl_index (slots s t i)) (Some d')
       else new i = slots s t i).
    {
      assert (G : forall w, w <= W -> exists new : nat -> slot D, forall i, i < w ->
       if sl_running (slots s t i)
       then exists d d' r, sl_data (slots s t i) = Some d /\ sim d d' r /\
            new i = mkslot r (sl_id (slots s t i)) (sl_index (slots s t i)) (Some d')
       else new i = slots s t i).
      { induction w as [|w IH]; intros Hw.
        - exists (slots s t). intros; lia.
        - destruct IH as [new Hnew]; [lia|].
          destruct (sl_running (slots s t w)) eqn:R.
          + destruct (S w ltac:(lia)) as [A B]. rewrite Ep in A, B.
            destruct (A R) as [A1 A2].
            destruct (B A1 A2) as (k & _ & _ & _ & (d0 & d & _ & E4 & _)).
            destruct (Tot d) as (d' & r & Hs).
            exists (upd new w (mkslot r (sl_id (slots s t w)) (sl_index (slots s t w)) (Some d'))).
            intros i Hi. destruct (Nat.eq_dec i w) as [->|N].
            * rewrite R, upd_same. eauto 10.
            * rewrite upd_other by auto. apply Hnew. lia.
          + exists (upd new w (slots s t w)). intros i Hi. destruct (Nat.eq_dec i w) as [->|N].
            * now rewrite R, upd_same.
            * rewrite upd_other by auto. apply Hnew. lia. }
      exact (G W (le_n W)). }
    destruct Hn as [new Hnew].
    do 2 eexists. split; [eapply st_sim; eauto|]. split; cbn [pcs].
    + rewrite upd_same, Ep. discriminate.
    + intros. now apply upd_other.
  - congruence.
Qed.

(** Queue entry a thread is about to read or write. *)
Definition accesses (s : sys) (t k : nat) : Prop :=
  k < n /\ ((exists i, pcs s t = PLoad i k) \/
            (exists i, pcs s t = PStore i /\ sl_index (slots s t i) = Some k)).

Lemma accesses_own tr s t k :
  exec (init qs) tr s -> t < T -> accesses s t k -> own t (hist k tr).
Proof.
  intros E Ht [Hk [(i & Hp)|(i & Hp & Hix)]]; pose proof (inv_exec _ _ E) as I;
    pose proof (I_pc _ _ I t Ht) as Q; unfold pc_ok in Q; rewrite Hp in Q.
  - destruct Q as (_ & _ & _ & ->). reflexivity.
  - destruct Q as (Hi & _ & _ & Hge). destruct (I_sl _ _ I t Ht i Hi) as [_ B].
    rewrite Hp in B. destruct (B Hge (fun x => x)) as (k' & E1 & _ & E3 & _).
    rewrite Hix in E1. injection E1 as <-. rewrite E3. reflexivity.
Qed.

Lemma no_race tr s t1 t2 k :
  exec (init qs) tr s -> t1 < T -> t2 < T ->
  accesses s t1 k -> accesses s t2 k -> t1 = t2.
Proof.
  intros E H1 H2 A1 A2.
  pose proof (accesses_own _ _ _ _ E H1 A1) as O1.
  pose proof (accesses_own _ _ _ _ E H2 A2) as O2.
  destruct (hist k tr) as [|[] ?]; cbn in *; try easy. congruence.
Qed.

(** ** The shared index never runs past n + number of slots *)
Definition dead (s : sys) (t i : nat) : Prop :=
  n < nxt s /\ (sl_id (slots s t i) < 0)%Z /\ ~ in_loop (pcs s t) i.
Definition over (tr : list ev) (t i : nat) : Prop :=
  exists k, n <= k /\ In (EFetch t i k) tr.
Definition OvInv (tr : list ev) (s : sys) : Prop :=
  (forall t i, over tr t i -> t < T /\ i < W /\
     (dead s t i \/ exists k, n <= k /\ pcs s t = PLoad i k /\ n < nxt s)) /\
  (forall t i k1 k2, n <= k1 -> n <= k2 ->
     In (EFetch t i k1) tr -> In (EFetch t i k2) tr -> k1 = k2).

Lemma over_app tr e t i : over (tr ++ e) t i <-> over tr t i \/ over e t i.
Proof.
  unfold over. split.
  - intros (k & H & I). apply in_app_or in I. destruct I; eauto.
  - intros [(k & H & I)|(k & H & I)]; exists k; split; auto; apply in_or_app; auto.
Qed.

Lemma ov_step tr s e s' : Inv tr s -> OvInv tr s -> step s e s' -> OvInv (tr ++ e) s'.
Proof.
  intros I [O1 O2] H.
  assert (Keep : (forall t i, ~ over e t i) ->
     (forall t i, over tr t i -> dead s t i -> dead s' t i) ->
     (forall t i k, n <= k -> pcs s t = PLoad i k -> over tr t i -> n < nxt s ->
        dead s' t i \/ exists k, n <= k /\ pcs s' t = PLoad i k /\ n < nxt s') ->
     OvInv (tr ++ e) s').
  { intros Ne Kd Kl. split.
    - intros t i H'. apply over_app in H'. destruct H' as [H'|H']; [|exfalso; now apply (Ne t i)].
      destruct (O1 t i H') as (A & B & [C|(k & C1 & C2 & C3)]); eauto 10.
    - intros t i k1 k2 H1 H2 I1 I2. apply in_app_or in I1, I2.
      destruct I1 as [I1|I1]; [|exfalso; apply (Ne t i); exists k1; auto].
      destruct I2 as [I2|I2]; [|exfalso; apply (Ne t i); exists k2; auto].
      eapply O2; eauto. }
  destruct H as
    [s t i Ht Hpc Hi | s t Ht Hpc | s t i k d Ht Hpc Hix Hk Hd | s t i k Ht Hpc
    | s t i Ht Hpc | s t i k Ht Hpc Hk | s t i k Ht Hpc Hk Hc He
    | s t i k e Ht Hpc Hk Hc Hl | s t i k e Ht Hpc Hk Hc Hl
    | s t i k d Ht Hpc Hk Hc Hl | s t new Ht Hpc Hsim].
  - (* check *) apply Keep.
    + intros t' i' (k & _ & []).
    + intros t' i' _ (D1 & D2 & D3). unfold dead, goto. cbn [nxt slots pcs].
      repeat split; auto. unfold upd. destruct (Nat.eqb_spec t' t) as [->|N]; auto.
      unfold check. destruct (_ && _)%bool; cbn [in_loop]; auto.
      destruct (Nat.ltb_spec (nxt s) n); [lia|]. rewrite andb_false_r. cbn; auto.
    + intros t' i' k L E _ L'. unfold goto. cbn [nxt pcs]. right. exists k.
      rewrite upd_other by congruence. auto.
  - apply Keep.
    + intros t' i' (k & _ & []).
    + intros t' i' _ (D1 & D2 & D3). unfold dead, goto. cbn [nxt slots pcs].
      repeat split; auto. unfold upd. destruct (Nat.eqb_spec t' t) as [->|N]; auto.
      destruct (Nat.ltb _ _); cbn; auto.
    + intros t' i' k L E _ L'. unfold goto. cbn [nxt pcs]. right. exists k.
      rewrite upd_other by congruence. auto.
  - (* store *)
    pose proof (I_pc _ _ I t Ht) as Q. unfold pc_ok in Q. rewrite Hpc in Q.
    destruct Q as (_ & _ & _ & Hge). apply Keep.
    + intros t' i' (k' & _ & [E|[]]). discriminate.
    + intros t' i' _ (D1 & D2 & D3). unfold dead. cbn [nxt slots pcs].
      repeat split; auto. unfold upd. destruct (Nat.eqb_spec t' t) as [->|N]; auto.
      cbn. intros <-. lia.
    + intros t' i' k' L E _ L'. cbn [nxt pcs]. right. exists k'.
      rewrite upd_other by congruence. auto.
  - (* fin *) apply Keep.
    + intros t' i' (k' & _ & [E|[]]). discriminate.
    + intros t' i' _ (D1 & D2 & D3). unfold dead. cbn [nxt slots pcs].
      repeat split; auto. unfold upd. destruct (Nat.eqb_spec t' t) as [->|N]; auto.
      rewrite Hpc in D3. exact D3.
    + intros t' i' k' L E _ L'. cbn [nxt pcs]. right. exists k'.
      rewrite upd_other by congruence. auto.
  - (* fetch *)
    pose proof (I_pc _ _ I t Ht) as Q. unfold pc_ok in Q. rewrite Hpc in Q.
    assert (NO : ~ over tr t i).
    { intros H. destruct (O1 t i H) as (_ & _ & [(D1 & D2 & D3)|(k & _ & E & _)]); [|congruence].
      rewrite Hpc in D3. now apply D3. }
    split.
    + intros t' i' H. apply over_app in H. destruct H as [H|(k & Hk & [E|[]])].
      * destruct (O1 t' i' H) as (A & B & [(D1 & D2 & D3)|(k & C1 & C2 & C3)]).
        -- repeat split; auto. left. unfold dead. cbn [nxt slots pcs]. repeat split; auto.
           unfold upd. destruct (Nat.eqb_spec t' t) as [->|N]; auto.
           rewrite Hpc in D3. exact D3.
        -- repeat split; auto. right. exists k. cbn [pcs nxt]. rewrite upd_other by congruence. auto.
      * injection E as <- <- <-. destruct Q. repeat split; auto. right. exists (nxt s).
        cbn [pcs nxt]. rewrite upd_same. repeat split; auto. lia.
    + intros t' i' k1 k2 H1 H2 I1 I2. apply in_app_or in I1, I2.
      destruct I1 as [I1|[I1|[]]], I2 as [I2|[I2|[]]].
      * eapply O2; eauto.
      * injection I2 as <- <- <-. exfalso. apply NO. exists k1. auto.
      * injection I1 as <- <- <-. exfalso. apply NO. exists k2. auto.
      * congruence.
  - (* dummy *) apply Keep.
    + intros t' i' (k' & _ & []).
    + intros t' i' _ (D1 & D2 & D3). unfold dead. cbn [nxt slots pcs]. split; auto.
      destruct (Nat.eq_dec t' t) as [->|N].
      * rewrite upd_same. cbn [in_loop]. split; auto.
        destruct (Nat.eq_dec i' i) as [->|N]; [rewrite upd2_same; cbn; lia|].
        rewrite upd2_other; auto.
      * rewrite upd_other, upd2_other; auto.
    + intros t' i' k' L E _ L'. cbn [nxt pcs]. destruct (Nat.eq_dec t' t) as [->|N].
      * left. rewrite Hpc in E. injection E as <- <-. unfold dead. cbn [nxt slots pcs].
        rewrite upd_same, upd2_same. cbn. repeat split; auto; lia.
      * right. exists k'. rewrite upd_other by auto. auto.
  - (* skip *) apply Keep.
    + intros t' i' (k' & _ & [E|[]]). discriminate.
    + intros t' i' _ (D1 & D2 & D3). unfold dead, goto. cbn [nxt slots pcs].
      repeat split; auto. unfold upd. destruct (Nat.eqb_spec t' t) as [->|N]; auto.
      rewrite Hpc in D3. exact D3.
    + intros t' i' k' L E _ L'. unfold goto. cbn [nxt pcs]. right. exists k'.
      rewrite upd_other; auto. intros ->. rewrite Hpc in E. injection E as <- <-. lia.
  - (* early *) apply Keep.
    + intros t' i' (k' & _ & [E|[]]). discriminate.
    + intros t' i' _ (D1 & D2 & D3). unfold dead. cbn [nxt slots pcs].
      repeat split; auto. unfold upd. destruct (Nat.eqb_spec t' t) as [->|N]; auto.
      rewrite Hpc in D3. exact D3.
    + intros t' i' k' L E _ L'. cbn [nxt pcs]. right. exists k'.
      rewrite upd_other; auto. intros ->. rewrite Hpc in E. injection E as <- <-. lia.
  - (* late *) apply Keep.
    + intros t' i' (k' & _ & [E|[]]). discriminate.
    + intros t' i' _ (D1 & D2 & D3). unfold dead. cbn [nxt slots pcs]. split; auto.
      destruct (Nat.eq_dec t' t) as [->|N].
      * rewrite upd_same. rewrite Hpc in D3. cbn [in_loop] in D3. rewrite upd2_other by auto. auto.
      * rewrite upd_other, upd2_other; auto.
    + intros t' i' k' L E _ L'. cbn [nxt pcs]. right. exists k'.
      rewrite upd_other; auto. intros ->. rewrite Hpc in E. injection E as <- <-. lia.
  - (* load *) apply Keep.
    + intros t' i' (k' & _ & [E|[]]). discriminate.
    + intros t' i' _ (D1 & D2 & D3). unfold dead. cbn [nxt slots pcs]. split; auto.
      destruct (Nat.eq_dec t' t) as [->|N].
      * rewrite upd_same. rewrite Hpc in D3. cbn [in_loop] in D3. rewrite upd2_other by auto. auto.
      * rewrite upd_other, upd2_other; auto.
    + intros t' i' k' L E _ L'. cbn [nxt pcs]. right. exists k'.
      rewrite upd_other; auto. intros ->. rewrite Hpc in E. injection E as <- <-. lia.
  - (* sim *) apply Keep.
    + intros t' i' (k' & _ & []).
    + intros t' i' _ (D1 & D2 & D3). unfold dead. cbn [nxt slots pcs]. split; auto.
      destruct (Nat.eqb_spec t' t) as [->|N]; cbn [andb].
      * rewrite upd_same. cbn [in_loop]. split; auto.
        destruct (Nat.ltb_spec i' W) as [L|L]; auto.
        specialize (Hsim i' L). destruct (sl_running (slots s t i')).
        -- destruct Hsim as (d & d' & r & _ & _ & ->). auto.
        -- now rewrite Hsim.
      * rewrite upd_other; auto.
    + intros t' i' k' L E _ L'. cbn [nxt pcs]. right. exists k'.
      rewrite upd_other by congruence. auto.
Qed.

Lemma ov_exec tr s : exec (init qs) tr s -> OvInv tr s.
Proof.
  induction 1 as [|tr s e s' H IH S].
  - split; [intros t i (k & _ & [])|intros ? ? ? ? _ _ []].
  - eapply ov_step; eauto. now apply inv_exec.
Qed.

Lemma next_bound tr s : exec (init qs) tr s -> nxt s <= n + T * W.
Proof.
  intros E. pose proof (inv_exec _ _ E) as I. destruct (ov_exec _ _ E) as [O1 O2].
  (* choose the owner of each overflow index *)
  assert (C : forall m, n + m <= nxt s -> exists l : list (nat * nat),
    length l = m /\ NoDup l /\ forall x, In x l -> In x (list_prod (seq 0 T) (seq 0 W))
      /\ exists k, n <= k < n + m /\ In (EFetch (fst x) (snd x) k) tr).
  { induction m as [|m IH]; intros Hm.
    - exists []. repeat split; auto; try constructor; easy.
    - destruct IH as (l & L1 & L2 & L3); [lia|].
      destruct (I_ov _ _ I (n + m) ltac:(lia) ltac:(lia)) as (t & i & Hh).
      assert (In1 : In (EFetch t i (n + m)) tr).
      { assert (In (EFetch t i (n + m)) (hist (n + m) tr)) as Q by (rewrite Hh; now left).
        apply filter_In in Q. tauto. }
      exists ((t, i) :: l). repeat split.
      + cbn. lia.
      + constructor; auto. intros Q. apply L3 in Q. destruct Q as (_ & k & K1 & K2).
        cbn in K2. assert (n + m = k) by (eapply O2; eauto; lia). lia.
      + destruct H as [<-|H]; [|now apply L3].
        destruct (O1 t i) as (A & B & _). { exists (n + m). split; [lia|auto]. }
        apply in_prod; apply in_seq; lia.
      + destruct H as [<-|H].
        * exists (n + m). split; [lia|auto].
        * destruct (L3 x H) as (_ & k & K1 & K2). exists k. split; [lia|auto]. }
  destruct (le_lt_dec (nxt s) n) as [L|L]; [lia|].
  destruct (C (nxt s - n)) as (l & L1 & L2 & L3); [lia|].
  assert (length l <= length (list_prod (seq 0 T) (seq 0 W))).
  { apply NoDup_incl_length; auto. intros x H. now apply L3. }
  rewrite prod_length, !seq_length in H. lia.
Qed.

End Proofs.

(** ** Corollaries about single markers *)
Section Single.
Context {P D : Type}.
Implicit Types (n T W k t : nat) (chk : bool) (load : entry P -> @loaded D)
  (store : D -> entry P -> entry P) (sim : D -> D -> bool -> Prop) (qs : nat -> entry P)
  (tr : list (ev D)) (s : sys P D).

Definition good_queue' n chk qs : Prop :=
  (forall k, k < n -> (0 <= e_id (qs k))%Z) /\
  (chk = true \/ forall k, k < n -> e_endcond (qs k) = 0%Z).

(** Whether a marker was ever loaded fixes how its entry may end. *)
Lemma never_loaded n T W chk load store sim qs tr s k :
  good_queue' n chk qs -> exec n T W chk load store sim (init qs) tr s ->
  k < n -> (forall d, load (qs k) <> LOk d) \/ (chk = true /\ e_endcond (qs k) <> 0%Z) ->
  forall t i, ~ In (ELoad t i k) tr.
Proof.
  intros [G1 G2] E Hk Hno t i.
  induction E as [|tr s e s' H IH S]; [easy|].
  intros Q. apply in_app_or in Q. destruct Q as [Q|Q]; [auto|].
  pose proof (inv_exec n T W chk load store sim qs G1 G2 tr s H) as I.
  destruct S as
    [s t0 i0 Ht Hpc Hi | s t0 Ht Hpc | s t0 i0 k' d Ht Hpc Hix Hk' Hd | s t0 i0 k' Ht Hpc
    | s t0 i0 Ht Hpc | s t0 i0 k' Ht Hpc Hk' | s t0 i0 k' Ht Hpc Hk' Hc He
    | s t0 i0 k' e Ht Hpc Hk' Hc Hl | s t0 i0 k' e Ht Hpc Hk' Hc Hl
    | s t0 i0 k' d Ht Hpc Hk' Hc Hl | s t0 new Ht Hpc Hsim];
    try (destruct Q as [Q|[]]; discriminate); try easy.
  destruct Q as [Q|[]]. injection Q as -> -> ->.
  pose proof (I_pc _ _ _ _ _ _ _ _ _ _ I t Ht) as K. unfold pc_ok in K. rewrite Hpc in K.
  destruct K as (_ & _ & _ & Hh).
  pose proof (I_ph _ _ _ _ _ _ _ _ _ _ I k Hk) as Pk. rewrite Hh in Pk.
  assert (Eq : ents s k = qs k) by (inversion Pk; auto). rewrite Eq in *.
  destruct Hno as [Hno|[Hc1 Hc2]]; [now apply (Hno d)|auto].
Qed.

Lemma failed_reported n T W chk load store sim qs tr s k x :
  good_queue' n chk qs -> 0 < T -> 0 < W ->
  exec n T W chk load store sim (init qs) tr s -> all_done T s -> k < n ->
  e_endcond (qs k) = 0%Z -> (load (qs k) = LEarly x \/ load (qs k) = LLate x) ->
  ents s k = with_err (qs k) x /\ (forall t i, ~ In (ELoad t i k) tr).
Proof.
  intros G HT HW E A Hk Hz Hx. split.
  - destruct (done_all n T W chk load store sim qs (proj1 G) (proj2 G) tr s HT HW E A k Hk) as [_ O].
    inversion O as [Hc He Eq|y Hc Hy Eq|d0 d He Hl Hs Eq]; subst.
    + congruence.
    + destruct Hx, Hy; congruence.
    + destruct Hx; congruence.
  - apply (never_loaded n T W chk load store sim qs tr s k G E Hk). left. intros d. destruct Hx; congruence.
Qed.

Lemma ended_untouched n T W load store sim qs tr s k :
  good_queue' n true qs -> 0 < T -> 0 < W ->
  exec n T W true load store sim (init qs) tr s -> all_done T s -> k < n ->
  e_endcond (qs k) <> 0%Z ->
  ents s k = qs k /\ (forall t i, ~ In (ELoad t i k) tr).
Proof.
  intros G HT HW E A Hk Hz. split.
  - destruct (done_all n T W true load store sim qs (proj1 G) (proj2 G) tr s HT HW E A k Hk) as [_ O].
    inversion O as [Hc He Eq|y Hc Hy Eq|d0 d He Hl Hs Eq]; subst; auto.
    + exfalso. auto.
    + exfalso. auto.
  - apply (never_loaded n T W true load store sim qs tr s k G E Hk). auto.
Qed.
End Single.

(** ** Markers with a negative identifier *)
Section Negative.
Context {P D : Type} (n T W : nat) (chk : bool)
  (load : entry P -> @loaded D) (store : D -> entry P -> entry P)
  (sim : D -> D -> bool -> Prop) (qs : nat -> entry P) (k : nat).
Notation step := (step n T W chk load store sim).
Notation exec := (exec n T W chk load store sim).
Hypothesis Hneg : (e_id (qs k) < 0)%Z.

Definition NegInv (tr : list (ev D)) (s : sys P D) : Prop :=
  (forall t i d, ~ In (EStore t i k d) tr) /\
  e_id (ents s k) = e_id (qs k) /\
  (forall t i, ~ in_loop (pcs s t) i -> sl_index (slots s t i) = Some k ->
     (sl_id (slots s t i) < 0)%Z) /\
  (forall t i, pcs s t = PStore i -> (0 <= sl_id (slots s t i))%Z).

Lemma neg_step tr s e s' : NegInv tr s -> step s e s' -> NegInv (tr ++ e) s'.
Proof.
  intros (N1 & N2 & N3 & N4) H.
  assert (St : forall e', (forall t i d, e' <> EStore t i k d) ->
             forall t i d, ~ In (EStore t i k d) (tr ++ [e'])).
  { intros e' He t i d Q. apply in_app_or in Q. destruct Q as [Q|[Q|[]]].
    - now apply (N1 t i d).
    - now apply (He t i d). }
  destruct H as
    [s t i Ht Hpc Hi | s t Ht Hpc | s t i k' d Ht Hpc Hix Hk Hd | s t i k' Ht Hpc
    | s t i Ht Hpc | s t i k' Ht Hpc Hk | s t i k' Ht Hpc Hk Hc He
    | s t i k' e Ht Hpc Hk Hc Hl | s t i k' e Ht Hpc Hk Hc Hl
    | s t i k' d Ht Hpc Hk Hc Hl | s t new Ht Hpc Hsim]; unfold NegInv;
    rewrite ?app_nil_r; cbn [goto ents pcs slots].
  - repeat split; auto.
    + intros t' i'. unfold upd. destruct (Nat.eqb_spec t' t) as [->|N]; [|apply N3].
      intros _. apply N3. rewrite Hpc. cbn. auto.
    + intros t' i'. unfold upd. destruct (Nat.eqb_spec t' t) as [->|N]; [|apply N4].
      unfold check. destruct (sl_running (slots s t i)); cbn [negb andb].
      * destruct (_ && _)%bool; discriminate.
      * destruct (Z.leb_spec 0 (sl_id (slots s t i))).
        -- intros [= <-]. auto.
        -- destruct (_ && _)%bool; discriminate.
  - repeat split; auto.
    + intros t' i'. unfold upd. destruct (Nat.eqb_spec t' t) as [->|N]; [|apply N3].
      intros _. apply N3. rewrite Hpc. cbn. auto.
    + intros t' i'. unfold upd. destruct (Nat.eqb_spec t' t) as [->|N]; [|apply N4].
      destruct (Nat.ltb _ _); discriminate.
  - assert (k' <> k).
    { intros ->. assert (0 <= sl_id (slots s t i))%Z by now apply N4.
      assert (sl_id (slots s t i) < 0)%Z by (apply N3; auto; rewrite Hpc; cbn; auto). lia. }
    repeat split; auto.
    + apply St. congruence.
    + now rewrite upd_other by auto.
    + intros t' i'. unfold upd. destruct (Nat.eqb_spec t' t) as [->|N]; [|apply N3].
      intros _. apply N3. rewrite Hpc. cbn. auto.
    + intros t' i'. unfold upd. destruct (Nat.eqb_spec t' t) as [->|N]; [|apply N4]. discriminate.
  - repeat split; auto.
    + apply St. congruence.
    + intros t' i'. unfold upd. destruct (Nat.eqb_spec t' t) as [->|N]; [|apply N3].
      intros Q. apply N3. rewrite Hpc. exact Q.
    + intros t' i'. unfold upd. destruct (Nat.eqb_spec t' t) as [->|N]; [|apply N4]. discriminate.
  - repeat split; auto.
    + apply St. congruence.
    + intros t' i'. unfold upd. destruct (Nat.eqb_spec t' t) as [->|N]; [|apply N3].
      intros Q. apply N3. rewrite Hpc. exact Q.
    + intros t' i'. unfold upd. destruct (Nat.eqb_spec t' t) as [->|N]; [|apply N4]. discriminate.
  - repeat split; auto.
    + intros t' i'. destruct (Nat.eq_dec t' t) as [->|N].
      * intros _. destruct (Nat.eq_dec i' i) as [->|M].
        -- rewrite upd2_same. cbn. lia.
        -- rewrite upd2_other by auto. apply N3. rewrite Hpc. cbn. auto.
      * rewrite upd_other, upd2_other by auto. apply N3.
    + intros t' i'. destruct (Nat.eq_dec t' t) as [->|N].
      * rewrite upd_same. discriminate.
      * rewrite upd_other, upd2_other by auto. apply N4.
  - repeat split; auto.
    + apply St. congruence.
    + intros t' i'. unfold upd. destruct (Nat.eqb_spec t' t) as [->|N]; [|apply N3].
      intros Q. apply N3. rewrite Hpc. exact Q.
    + intros t' i'. unfold upd. destruct (Nat.eqb_spec t' t) as [->|N]; [|apply N4]. discriminate.
  - repeat split; auto.
    + apply St. congruence.
    + unfold upd. destruct (Nat.eqb_spec k k') as [->|N]; auto.
    + intros t' i'. unfold upd. destruct (Nat.eqb_spec t' t) as [->|N]; [|apply N3].
      intros Q. apply N3. rewrite Hpc. exact Q.
    + intros t' i'. unfold upd. destruct (Nat.eqb_spec t' t) as [->|N]; [|apply N4]. discriminate.
  - repeat split; auto.
    + apply St. congruence.
    + unfold upd. destruct (Nat.eqb_spec k k') as [->|N]; auto.
    + intros t' i'. destruct (Nat.eq_dec t' t) as [->|N].
      * rewrite upd_same. cbn [in_loop]. intros M. rewrite upd2_other by auto.
        apply N3. rewrite Hpc. exact M.
      * rewrite upd_other, upd2_other by auto. apply N3.
    + intros t' i'. destruct (Nat.eq_dec t' t) as [->|N].
      * rewrite upd_same. discriminate.
      * rewrite upd_other, upd2_other by auto. apply N4.
  - repeat split; auto.
    + apply St. congruence.
    + intros t' i'. destruct (Nat.eq_dec t' t) as [->|N].
      * intros _. destruct (Nat.eq_dec i' i) as [->|M].
        -- rewrite upd2_same. cbn. intros [= ->]. lia.
        -- rewrite upd2_other by auto. apply N3. rewrite Hpc. cbn. auto.
      * rewrite upd_other, upd2_other by auto. apply N3.
    + intros t' i'. destruct (Nat.eq_dec t' t) as [->|N].
      * rewrite upd_same. discriminate.
      * rewrite upd_other, upd2_other by auto. apply N4.
  - repeat split; auto.
    + intros t' i'. destruct (Nat.eqb_spec t' t) as [->|N]; cbn [andb].
      * rewrite upd_same. cbn [in_loop]. intros _.
        destruct (Nat.ltb_spec i' W) as [L|L].
        -- specialize (Hsim i' L). destruct (sl_running (slots s t i')) eqn:R.
           ++ destruct Hsim as (d & d' & r & _ & _ & ->). cbn. apply N3. rewrite Hpc; cbn; auto.
           ++ rewrite Hsim. apply N3. rewrite Hpc; cbn; auto.
        -- apply N3. rewrite Hpc; cbn; auto.
      * rewrite upd_other by auto. apply N3.
    + intros t' i'. destruct (Nat.eqb_spec t' t) as [->|N]; cbn [andb].
      * rewrite upd_same. discriminate.
      * rewrite upd_other by auto. apply N4.
Qed.

Lemma negative_never_stored tr s :
  exec (init qs) tr s -> forall t i d, ~ In (EStore t i k d) tr.
Proof.
  intros E. assert (N : NegInv tr s).
  { induction E as [|tr s e s' H IH S].
    - repeat split; auto; cbn; try discriminate; auto.
    - eapply neg_step; eauto. }
  apply N.
Qed.
End Negative.

(** ** An executable scheduler, for examples and witnesses *)
Section Run.
Context {P D : Type} (n T W : nat) (chk : bool)
  (load : entry P -> @loaded D) (store : D -> entry P -> entry P) (simf : D -> D * bool).
Definition simr (d d' : D) (r : bool) : Prop := simf d = (d', r).
Notation step := (step n T W chk load store simr).
Notation exec := (exec n T W chk load store simr).

Definition sim_slot (sl : slot D) : slot D :=
  if sl_running sl then
    match sl_data sl with
    | Some d => mkslot (snd (simf d)) (sl_id sl) (sl_index sl) (Some (fst (simf d)))
    | None => sl
    end
  else sl.
Definition sim_def (s : sys P D) (t : nat) : bool :=
  forallb (fun i => implb (sl_running (slots s t i))
    (match sl_data (slots s t i) with Some _ => true | None => false end)) (seq 0 W).

Definition run1 (t : nat) (s : sys P D) : option (list (ev D) * sys P D) :=
  if negb (Nat.ltb t T) then None else
  match pcs s t with
  | PCheck i =>
      if Nat.ltb i W then Some ([], goto s t (check n s t i))
      else if Nat.eqb i W
           then Some ([], goto s t (if Nat.ltb 0 (n_running W s t) then PSim else PDone))
           else None
  | PStore i =>
      match sl_index (slots s t i), sl_data (slots s t i) with
      | Some k, Some d => if Nat.ltb k n then
          Some ([EStore t i k d],
            mksys (nxt s) (fin s) (upd (ents s) k (store d (ents s k)))
             (upd (pcs s) t (PFin i k)) (slots s)) else None
      | _, _ => None
      end
  | PFin i k => Some ([EFin t i k],
      mksys (nxt s) (S (fin s)) (ents s) (upd (pcs s) t (PFetch i)) (slots s))
  | PFetch i => Some ([EFetch t i (nxt s)],
      mksys (S (nxt s)) (fin s) (ents s) (upd (pcs s) t (PLoad i (nxt s))) (slots s))
  | PLoad i k =>
      if Nat.leb n k then
        Some ([], mksys (nxt s) (fin s) (ents s) (upd (pcs s) t (PCheck (S i)))
             (upd2 (slots s) t i
                (mkslot false (-1) (sl_index (slots s t i)) (sl_data (slots s t i)))))
      else if (chk && negb (e_endcond (ents s k) =? 0)%Z)%bool
      then Some ([ESkip t i k], goto s t (PFin i k))
      else match load (ents s k) with
           | LEarly e => Some ([EFail t i k e],
              mksys (nxt s) (fin s) (upd (ents s) k (with_err (ents s k) e))
               (upd (pcs s) t (PFin i k)) (slots s))
           | LLate e => Some ([EFail t i k e],
              mksys (nxt s) (fin s) (upd (ents s) k (with_err (ents s k) e))
               (upd (pcs s) t (PFin i k))
               (upd2 (slots s) t i
                (mkslot (sl_running (slots s t i)) (e_id (ents s k))
                        (sl_index (slots s t i)) (sl_data (slots s t i)))))
           | LOk d => Some ([ELoad t i k],
              mksys (nxt s) (fin s) (ents s) (upd (pcs s) t (PCheck (S i)))
               (upd2 (slots s) t i
                (mkslot (e_endcond (ents s k) =? 0)%Z (e_id (ents s k)) (Some k) (Some d))))
           end
  | PSim => if sim_def s t then
      Some ([], mksys (nxt s) (fin s) (ents s) (upd (pcs s) t (PCheck 0))
             (fun t' i => if (Nat.eqb t' t && Nat.ltb i W)%bool then sim_slot (slots s t i)
                          else slots s t' i))
      else None
  | PDone => None
  end.

Lemma run1_step t s e s' : run1 t s = Some (e, s') -> step s e s'.
Proof.
  unfold run1. destruct (Nat.ltb_spec t T) as [Ht|]; cbn [negb]; [|discriminate].
  destruct (pcs s t) as [i|i|i k|i|i k| |] eqn:Ep; try discriminate.
  - destruct (Nat.ltb_spec i W).
    + intros [= <- <-]. now apply st_check.
    + destruct (Nat.eqb_spec i W) as [->|]; [|discriminate]. intros [= <- <-]. now apply st_end.
  - destruct (sl_index (slots s t i)) as [k|] eqn:Ei; [|discriminate].
    destruct (sl_data (slots s t i)) as [d|] eqn:Ed; [|discriminate].
    destruct (Nat.ltb_spec k n); [|discriminate]. intros [= <- <-]. eapply st_store; eauto.
  - intros [= <- <-]. now apply st_fin.
  - intros [= <- <-]. now apply st_fetch.
  - destruct (Nat.leb_spec n k) as [L|L].
    + intros [= <- <-]. eapply st_dummy; eauto.
    + destruct chk eqn:Ec; cbn [andb].
      * destruct (Z.eqb_spec (e_endcond (ents s k)) 0) as [Z0|Z0]; cbn [negb].
        -- destruct (load (ents s k)) as [x|x|d] eqn:El; intros [= <- <-].
           ++ eapply st_early; eauto.
           ++ eapply st_late; eauto.
           ++ pose proof (st_load n T W true load store simr s t i k d Ht Ep L (fun _ => Z0) El) as Q.
              rewrite Z0 in Q. exact Q.
        -- intros [= <- <-]. eapply st_skip; eauto.
      * destruct (load (ents s k)) as [x|x|d] eqn:El; intros [= <- <-].
        -- eapply st_early; eauto. discriminate.
        -- eapply st_late; eauto. discriminate.
        -- eapply st_load; eauto. discriminate.
  - destruct (sim_def s t) eqn:Es; [|discriminate]. intros [= <- <-].
    apply (st_sim n T W chk load store simr s t (fun i => sim_slot (slots s t i))); auto.
    intros i Hi. unfold sim_def in Es. rewrite forallb_forall in Es.
    specialize (Es i). rewrite in_seq in Es. specialize (Es ltac:(lia)).
    unfold sim_slot. destruct (sl_running (slots s t i)); auto.
    destruct (sl_data (slots s t i)) as [d|]; [|discriminate].
    exists d, (fst (simf d)), (snd (simf d)). repeat split; auto.
    unfold simr. now destruct (simf d).
Qed.

(** A turn given to a thread that cannot move is ignored. *)
Fixpoint run (sch : list nat) (s : sys P D) : list (ev D) * sys P D :=
  match sch with
  | [] => ([], s)
  | t :: sch' =>
      match run1 t s with
      | None => run sch' s
      | Some (e, s1) => let '(tr, s2) := run sch' s1 in (e ++ tr, s2)
      end
  end.

Lemma exec_trans s0 tr s : exec s0 tr s -> forall tr' s', exec s tr' s' -> exec s0 (tr ++ tr') s'.
Proof.
  intros H. induction 1 as [|tr' s1 e s' H' IH S].
  - now rewrite app_nil_r.
  - rewrite app_assoc. econstructor; eauto.
Qed.

Lemma run_exec sch : forall s, exec s (fst (run sch s)) (snd (run sch s)).
Proof.
  induction sch as [|t sch IH]; intros s; cbn [run].
  - constructor.
  - destruct (run1 t s) as [[e s1]|] eqn:E; [|apply IH].
    specialize (IH s1). destruct (run sch s1) as [tr1 s2]. cbn [fst snd] in *.
    apply (exec_trans s e s1); auto.
    change e with ([] ++ e). econstructor; [constructor|]. now apply run1_step with t.
Qed.
End Run.

(** Concrete markers: the payload counts the remaining time steps; a negative
    payload makes the conversion fail. *)
Definition ex_load (e : entry Z) : @loaded Z :=
  if negb (e_err e =? 0)%Z then LEarly (e_err e)
  else if (e_pay e <? 0)%Z then LLate 77 else LOk (e_pay e).
Definition ex_store (d : Z) (e : entry Z) : entry Z := mkentry (e_id e) 1 (e_err e) d.
Definition ex_sim (d : Z) : Z * bool := ((d - 1)%Z, (1 <? d)%Z).

(** Guiding-centre or field-line loader, one thread, one slot: an already
    finished marker ahead of a fresh one ends the thread. *)
Definition bad_queue (k : nat) : entry Z :=
  if Nat.eqb k 0 then mkentry 1 1 0 5%Z else mkentry 2 0 0 3%Z.

Lemma ended_marker_stops_thread :
  exists tr s, exec 2 1 1 false ex_load ex_store (simr ex_sim) (init bad_queue) tr s /\
    all_done 1 s /\ fin s = 0 /\ hist 1 tr = [] /\ ents s 1 = bad_queue 1
    /\ (forall t i d, ~ In (EStore t i 0 d) tr).
Proof.
  set (p := run 2 1 1 false ex_load ex_store ex_sim [0;0;0;0] (init bad_queue)).
  exists (fst p), (snd p). split; [apply run_exec|].
  assert (R6 : fst p = [EFetch 0 0 0; ELoad 0 0 0]) by reflexivity.
  assert (R2 : pcs (snd p) 0 = PDone) by reflexivity.
  repeat split; auto.
  - intros t Ht. replace t with 0 by lia. auto.
  - intros t i d. rewrite R6. intros [E|[E|[]]]; discriminate.
Qed.
