(** Specifications and proofs for TermModel: simulations end. *)
From Coq Require Import Reals ZArith List Bool Lia Lra Arith.
From Verif Require Import QueueModel QueueProofs.
From Verif Require SimModel SimProofs EndcondModel.
From Verif Require Import TermModel.
Import ListNotations.

(** ** Sums over threads and slots *)
Fixpoint sumn (f : nat -> nat) (n : nat) : nat := match n with O => O | S m => sumn f m + f m end.
Lemma sumn_ext f g n : (forall i, i < n -> f i = g i) -> sumn f n = sumn g n.
Proof. induction n; intros H; cbn; auto. rewrite IHn, H; auto. Qed.
Lemma sumn_le f g n : (forall i, i < n -> f i <= g i) -> sumn f n <= sumn g n.
Proof. induction n; intros H; cbn; auto. apply Nat.add_le_mono; auto. Qed.
Lemma sumn_lt f g n j : (forall i, i < n -> f i <= g i) -> j < n -> f j < g j -> sumn f n < sumn g n.
Proof.
  induction n; intros H J L; [lia|]. cbn. destruct (Nat.eq_dec j n) as [->|N].
  - apply Nat.add_le_lt_mono; auto. apply sumn_le. auto.
  - apply Nat.add_lt_le_mono; auto. apply IHn; auto. lia.
Qed.
Lemma sumn_change f g n t : t < n -> (forall i, i <> t -> f i = g i) -> sumn f n + g t = sumn g n + f t.
Proof.
  induction n; intros L H; [lia|]. cbn. destruct (Nat.eq_dec t n) as [->|N].
  - rewrite (sumn_ext f g n); [lia|]. intros i I. apply H. lia.
  - rewrite (H n) by lia. specialize (IHn ltac:(lia) H). lia.
Qed.

(** ** Every execution of the queue is finite *)
(** m steps of the system, one thread after the other in any order *)
Inductive nsteps {P D} n T W chk load store (sim : D -> D -> bool -> Prop) (s0 : sys P D) : nat -> list (ev D) -> sys P D -> Prop :=
| ns_0 : nsteps n T W chk load store sim s0 0 [] s0
| ns_S m tr s e s' : nsteps n T W chk load store sim s0 m tr s -> step n T W chk load store sim s e s' ->
    nsteps n T W chk load store sim s0 (S m) (tr ++ e) s'.

Section queue.
Context {P D : Type} (n T W : nat) (chk : bool)
  (load : entry P -> @loaded D) (store : D -> entry P -> entry P)
  (sim : D -> D -> bool -> Prop) (qs : nat -> entry P).
Notation sys := (sys P D).
Notation step := (step n T W chk load store sim).
Notation exec := (exec n T W chk load store sim).
Hypothesis Hid : forall k, k < n -> (0 <= e_id (qs k))%Z.
Hypothesis Hend : chk = true \/ forall k, k < n -> e_endcond (qs k) = 0%Z.
(** a property the simulation preserves and a number of passes that shrinks *)
Variables (J : D -> Prop) (budget : D -> nat) (Bm : nat).
Hypothesis J_load : forall k d, k < n -> load (qs k) = LOk d -> J d.
Hypothesis J_sim : forall d d', J d -> sim d d' true -> J d'.
Hypothesis B_load : forall k d, k < n -> load (qs k) = LOk d -> budget d <= Bm.
Hypothesis B_sim : forall d d', J d -> sim d d' true -> budget d' < budget d.

Lemma nsteps_exec m tr (s0 s : sys) : nsteps n T W chk load store sim s0 m tr s -> exec s0 tr s.
Proof. induction 1; econstructor; eauto. Qed.

Definition SimInv (s : sys) : Prop := forall t, t < T -> pcs s t = PSim -> exists i, i < W /\ sl_running (slots s t i) = true.
Lemma n_running_pos (s : sys) t : 0 < n_running W s t -> exists i, i < W /\ sl_running (slots s t i) = true.
Proof.
  unfold n_running. intros H. destruct (filter (fun i => sl_running (slots s t i)) (seq 0 W)) as [|i l] eqn:E; [cbn in H; lia|].
  assert (I : In i (filter (fun i => sl_running (slots s t i)) (seq 0 W))) by (rewrite E; now left).
  apply filter_In in I. destruct I as [I R]. apply in_seq in I. exists i. split; [lia|exact R].
Qed.

Definition slotw (sl : slot D) : nat := if sl_running sl then match sl_data sl with Some d => S (budget d) | None => 1 end else 0.
Definition pend (p : pc) : nat := match p with PLoad _ k => if k <? n then Bm + 1 else 0 | _ => 0 end.
Definition tw (s : sys) (t : nat) : nat := pend (pcs s t) + sumn (fun i => slotw (slots s t i)) W.
Definition work (s : sys) : nat := (n - nxt s) * (Bm + 2) + sumn (tw s) T.
Definition place (p : pc) : nat :=
  match p with
  | PCheck i => 5 * (W - i) + 5 | PStore i => 5 * (W - i) + 4 | PFin i _ => 5 * (W - i) + 3 | PFetch i => 5 * (W - i) + 2
  | PLoad i k => if k <? n then 5 * (W - i) + 4 else 5 * (W - i) + 1 | PSim => 1 | PDone => 0 end.
Definition measure (s : sys) : nat := work s * (5 * W + 6) + sumn (fun t => place (pcs s t)) T.
Lemma place_lt p : place p < 5 * W + 6.
Proof. destruct p; cbn [place]; try destruct (_ <? _); lia. Qed.

(** a step of thread t: less to do, or as much to do and a later place in the code *)
Lemma measure_step s s' t : t < T -> (forall t', t' <> t -> pcs s' t' = pcs s t' /\ forall i, slots s' t' i = slots s t' i) ->
  (n - nxt s') * (Bm + 2) + tw s' t < (n - nxt s) * (Bm + 2) + tw s t \/
  ((n - nxt s') * (Bm + 2) + tw s' t <= (n - nxt s) * (Bm + 2) + tw s t /\ place (pcs s' t) < place (pcs s t)) ->
  measure s' < measure s.
Proof.
  intros Ht O H. unfold measure, work.
  assert (E1 : sumn (tw s') T + tw s t = sumn (tw s) T + tw s' t).
  { apply sumn_change; auto. intros i N. destruct (O i N) as [A B]. unfold tw. rewrite A. f_equal. apply sumn_ext. intros k _. now rewrite B. }
  assert (E2 : sumn (fun t => place (pcs s' t)) T + place (pcs s t) = sumn (fun t => place (pcs s t)) T + place (pcs s' t)).
  { apply (sumn_change (fun t => place (pcs s' t)) (fun t => place (pcs s t))); auto. intros i N. destruct (O i N) as [A B]. now rewrite A. }
  pose proof (place_lt (pcs s' t)) as L.
  set (a' := (n - nxt s') * (Bm + 2)) in *. set (a := (n - nxt s) * (Bm + 2)) in *. set (K := 5 * W + 6) in *.
  set (x' := sumn (tw s') T) in *. set (x := sumn (tw s) T) in *.
  destruct H as [H|[H1 H2]].
  - assert (G : a' + x' + 1 <= a + x) by lia. apply (Nat.mul_le_mono_r _ _ K) in G. rewrite Nat.mul_add_distr_r in G. lia.
  - assert (G : a' + x' <= a + x) by lia. apply (Nat.mul_le_mono_r _ _ K) in G. lia.
Qed.

Lemma reach_J d0 d : J d0 -> reach sim d0 d -> J d.
Proof. intros H. induction 1; auto. eapply J_sim; eauto. Qed.

Lemma step_measure tr s e s' : Inv n T W chk load store sim qs tr s -> SimInv s -> step s e s' -> measure s' < measure s.
Proof.
  intros I SI H.
  destruct H as [s t i Ht E Hi|s t Ht E|s t i k d Ht E Ex Hk Ed|s t i k Ht E|s t i Ht E|s t i k Ht E Hk|s t i k Ht E Hk C1 C2|s t i k e Ht E Hk C L|s t i k e Ht E Hk C L|s t i k d Ht E Hk C L|s t new Ht E Hn];
    apply (measure_step _ _ t Ht); try (intros t' N; cbn [goto pcs slots]; rewrite ?upd_other by auto; split; [reflexivity|intros i'; rewrite ?upd2_other by auto; try reflexivity]);
    unfold tw; cbn [goto pcs slots nxt]; rewrite ?upd_same, ?E; cbn [pend place].
  - right. unfold check. destruct (negb _ && _)%bool; [|destruct (_ && _)%bool]; cbn [pend place]; split; lia.
  - right. rewrite Nat.sub_diag. destruct (0 <? n_running W s t); cbn [pend place]; split; lia.
  - right. split; lia.
  - right. split; lia.
  - destruct (Nat.ltb_spec (nxt s) n) as [L|L].
    + left. replace (n - nxt s) with (S (n - S (nxt s))) by lia. cbn [Nat.mul]. lia.
    + right. replace (n - nxt s) with 0 by lia. replace (n - S (nxt s)) with 0 by lia. split; lia.
  - right. pose proof (I_pc _ _ _ _ _ _ _ _ _ _ I t Ht) as Q. unfold pc_ok in Q. rewrite E in Q. destruct Q as (Hi & _).
    apply Nat.ltb_ge in Hk. rewrite Hk. split; [|lia]. apply Nat.add_le_mono_l, sumn_le. intros j Hj. unfold upd2. destruct (_ && _)%bool eqn:B; [|lia].
    cbn [slotw sl_running]. unfold slotw. cbn [sl_running]. lia.
  - apply Nat.ltb_lt in Hk. rewrite Hk. right. split; lia.
  - apply Nat.ltb_lt in Hk. rewrite Hk. right. split; lia.
  - apply Nat.ltb_lt in Hk. rewrite Hk. right. split; [|lia].
    apply Nat.add_le_mono_l. apply Nat.add_le_mono; [lia|]. apply sumn_le. intros j Hj. unfold upd2.
    destruct (_ && _)%bool eqn:B; [|lia]. apply andb_true_iff in B. destruct B as [_ B]. apply Nat.eqb_eq in B. subst j. unfold slotw. cbn [sl_running sl_data]. lia.
  - pose proof (I_pc _ _ _ _ _ _ _ _ _ _ I t Ht) as Q. unfold pc_ok in Q. rewrite E in Q. destruct Q as (Hi & _ & _ & Hh).
    pose proof (I_ph _ _ _ _ _ _ _ _ _ _ I k Hk) as Q. rewrite Hh in Q. inversion Q as [| t0 i0 A1 A2 A3 | | | | | | |]; subst.
    rewrite A3 in L. pose proof (B_load k d Hk L) as Bd.
    apply Nat.ltb_lt in Hk. rewrite Hk. right. split; [|lia].
    assert (G : sumn (fun i0 => slotw (upd2 (slots s) t i {| sl_running := (e_endcond (ents s k) =? 0)%Z; sl_id := e_id (ents s k); sl_index := Some k; sl_data := Some d |} t i0)) W + slotw (slots s t i)
      = sumn (fun i0 => slotw (slots s t i0)) W + slotw {| sl_running := (e_endcond (ents s k) =? 0)%Z; sl_id := e_id (ents s k); sl_index := Some k; sl_data := Some d |}).
    { pose proof (sumn_change (fun i0 => slotw (upd2 (slots s) t i {| sl_running := (e_endcond (ents s k) =? 0)%Z; sl_id := e_id (ents s k); sl_index := Some k; sl_data := Some d |} t i0)) (fun i0 => slotw (slots s t i0)) W i Hi) as G.
      cbv beta in G. rewrite upd2_same in G. apply G. intros j N. rewrite upd2_other; auto. }
    assert (G2 : slotw {| sl_running := (e_endcond (ents s k) =? 0)%Z; sl_id := e_id (ents s k); sl_index := Some k; sl_data := Some d |} <= Bm + 1).
    { unfold slotw. cbn [sl_running sl_data]. destruct (_ =? _)%Z; lia. }
    lia.
  - cbn [slots pcs]. destruct (Nat.eqb_spec t' t) as [->|]; [congruence|]. reflexivity.
  - left. apply Nat.add_lt_mono_l, Nat.add_lt_mono_l. destruct (SI t Ht E) as (j & Hj & Rj).
    assert (One : forall i, i < W -> slotw (new i) <= slotw (slots s t i) /\ (sl_running (slots s t i) = true -> slotw (new i) < slotw (slots s t i))).
    { intros i Hi. specialize (Hn i Hi). destruct (sl_running (slots s t i)) eqn:R; [|rewrite Hn; split; [lia|congruence]].
      destruct Hn as (d & d' & r & Dd & S & ->). unfold slotw. cbn [sl_running sl_data]. rewrite R, Dd.
      destruct r; [|lia].
      pose proof (I_sl _ _ _ _ _ _ _ _ _ _ I t Ht i Hi) as (G1 & G2). destruct (G1 R) as [G3 G4]. destruct (G2 G3 G4) as (k & _ & Hk & _ & d0 & d1 & L & Dd1 & _ & Rc).
      rewrite R in Rc. rewrite Dd in Dd1. injection Dd1 as <-. assert (B : budget d' < budget d); [|lia].
      apply B_sim; [|exact S]. eapply reach_J; [eapply J_load; eauto|exact Rc]. }
    rewrite (sumn_ext (fun i => slotw (if ((t =? t) && (i <? W))%bool then new i else slots s t i)) (fun i => slotw (new i))).
    + apply (sumn_lt _ _ W j); auto; [intros i Hi; apply One; auto|]. apply One; auto.
    + intros i Hi. rewrite Nat.eqb_refl. apply Nat.ltb_lt in Hi. now rewrite Hi.
Qed.

Lemma siminv_step s e s' : SimInv s -> step s e s' -> SimInv s'.
Proof.
  intros SI H.
  destruct H as [s t i Ht E Hi|s t Ht E|s t i k d Ht E Ex Hk Ed|s t i k Ht E|s t i Ht E|s t i k Ht E Hk|s t i k Ht E Hk C1 C2|s t i k e Ht E Hk C L|s t i k e Ht E Hk C L|s t i k d Ht E Hk C L|s t new Ht E Hn];
    intros t' Ht' E'; cbn [goto pcs slots] in *; (destruct (Nat.eq_dec t' t) as [->|N]; [rewrite upd_same in E'|rewrite upd_other in E' by auto]); try discriminate;
    try (destruct (SI t' Ht' E') as (j & Hj & R); exists j; split; [exact Hj|]; rewrite ?upd2_other by auto; exact R).
  - exfalso. revert E'. unfold check. destruct (negb _ && _)%bool; [|destruct (_ && _)%bool]; discriminate.
  - destruct (Nat.ltb_spec 0 (n_running W s t)) as [L|L]; [|discriminate]. exact (n_running_pos s t L).
  - destruct (SI t' Ht' E') as (j & Hj & R); exists j; split; [exact Hj|]. destruct (Nat.eqb_spec t' t) as [->|]; [congruence|exact R].
Qed.

Lemma nsteps_measure m tr s : nsteps n T W chk load store sim (init qs) m tr s -> SimInv s /\ m + measure s <= measure (init qs).
Proof.
  induction 1 as [|m tr s e s' H [IS IM] S].
  - split; [|lia]. intros t Ht E. discriminate.
  - split; [exact (siminv_step _ _ _ IS S)|].
    pose proof (step_measure tr s e s' (inv_exec n T W chk load store sim qs Hid Hend tr s (nsteps_exec _ _ _ _ H)) IS S). lia.
Qed.
Lemma exec_nsteps (s0 : sys) tr s : exec s0 tr s -> exists m, nsteps n T W chk load store sim s0 m tr s.
Proof. induction 1 as [|tr s e s' H [m IH] Q]; [exists 0; constructor|]. exists (S m). econstructor; eauto. Qed.

(** the order of the steps does not matter: as long as some thread can move, let it *)
Lemma run_out : (forall d, exists d' r, sim d d' r) -> forall b m tr s, nsteps n T W chk load store sim (init qs) m tr s -> measure (init qs) < m + b ->
  exists tr' s', exec (init qs) tr' s' /\ all_done T s'.
Proof.
  intros Tot. induction b as [|b IH]; intros m tr s H L.
  - destruct (nsteps_measure _ _ _ H) as [_ G]. lia.
  - assert (Dec : (forall t, t < T -> pcs s t = PDone) \/ exists t, t < T /\ pcs s t <> PDone).
    { clear. induction T as [|k [A|(t & A & B)]].
      - left. intros t Ht. lia.
      - destruct (pcs s k) eqn:E; try (right; exists k; split; [lia|congruence]). left. intros t Ht. destruct (Nat.eq_dec t k) as [->|N]; [exact E|apply A; lia].
      - right. exists t. split; [lia|exact B]. }
    destruct Dec as [A|(t & Ht & A)]; [exists tr, s; split; [exact (nsteps_exec _ _ _ _ H)|exact A]|].
    destruct (progress n T W chk load store sim qs Hid Hend tr s t Tot (nsteps_exec _ _ _ _ H) Ht A) as (e & s' & S & _).
    apply (IH (Datatypes.S m) (tr ++ e) s'); [econstructor; eauto|lia].
Qed.
End queue.

Lemma budget_bound {P D} n (load : entry P -> @loaded D) qs (budget : D -> nat) : exists Bm, forall k d, k < n -> load (qs k) = LOk d -> budget d <= Bm.
Proof.
  induction n as [|n [B IH]]; [exists 0; intros k d H; lia|].
  destruct (load (qs n)) as [| |d] eqn:E.
  - exists B. intros k d' H L. destruct (Nat.eq_dec k n) as [->|N]; [rewrite E in L; discriminate|]. apply (IH k); auto; lia.
  - exists B. intros k d' H L. destruct (Nat.eq_dec k n) as [->|N]; [rewrite E in L; discriminate|]. apply (IH k); auto; lia.
  - exists (B + budget d). intros k d' H L. destruct (Nat.eq_dec k n) as [->|N]; [rewrite E in L; injection L as <-; lia|]. specialize (IH k d' ltac:(lia) L). lia.
Qed.

(** a queue as the readers make it *)
Definition proper_queue {P} (n : nat) (chk : bool) (qs : nat -> entry P) : Prop :=
  (forall k, k < n -> (0 <= e_id (qs k))%Z) /\ (chk = true \/ forall k, k < n -> e_endcond (qs k) = 0%Z).
(** every marker of the queue can be simulated for some number of passes at most *)
Definition limited {P D} n (load : entry P -> @loaded D) (sim : D -> D -> bool -> Prop) (qs : nat -> entry P) : Prop :=
  exists (J : D -> Prop) (budget : D -> nat),
    (forall k d, k < n -> load (qs k) = LOk d -> J d) /\
    (forall d d', J d -> sim d d' true -> J d' /\ budget d' < budget d).

Theorem queue_bounded {P D : Type} : forall n T W chk (load : entry P -> @loaded D) (store : D -> entry P -> entry P) (sim : D -> D -> bool -> Prop) (qs : nat -> entry P),
  proper_queue n chk qs -> limited n load sim qs ->
  exists N, forall m tr s, nsteps n T W chk load store sim (init qs) m tr s -> m <= N.
Proof.
  intros n T W chk load store sim qs [H1 H2] (J & budget & G1 & G2). destruct (budget_bound n load qs budget) as (Bm & HB).
  exists (measure n T W budget Bm (init qs)). intros m tr s H.
  assert (A1 : forall d d', J d -> sim d d' true -> J d') by (intros d d' A B; apply (G2 d d' A B)).
  assert (A2 : forall d d', J d -> sim d d' true -> budget d' < budget d) by (intros d d' A B; apply (G2 d d' A B)).
  destruct (nsteps_measure n T W chk load store sim qs H1 H2 J budget Bm G1 A1 HB A2 m tr s H) as [_ L]. lia.
Qed.

(** no endless execution *)
Theorem queue_not_endless {P D : Type} : forall n T W chk (load : entry P -> @loaded D) (store : D -> entry P -> entry P) (sim : D -> D -> bool -> Prop) (qs : nat -> entry P),
  proper_queue n chk qs -> limited n load sim qs ->
  forall f : nat -> sys P D, f 0 = init qs -> ~ (forall i, exists e, step n T W chk load store sim (f i) e (f (S i))).
Proof.
  intros n T W chk load store sim qs G L f F0 F. destruct (queue_bounded n T W chk load store sim qs G L) as (N & HN).
  assert (A : forall m, exists tr, nsteps n T W chk load store sim (init qs) m tr (f m)).
  { induction m as [|m [tr IH]]; [exists []; rewrite F0; constructor|]. destruct (F m) as (e & Fe). exists (tr ++ e). econstructor; eauto. }
  destruct (A (S N)) as (tr & B). apply HN in B. lia.
Qed.

(** an execution that cannot go on has processed every marker, and such an execution exists *)
Theorem queue_ends {P D : Type} : forall n T W chk (load : entry P -> @loaded D) (store : D -> entry P -> entry P) (sim : D -> D -> bool -> Prop) (qs : nat -> entry P),
  proper_queue n chk qs -> limited n load sim qs -> (forall d, exists d' r, sim d d' r) -> 0 < T -> 0 < W ->
  (exists tr s, exec n T W chk load store sim (init qs) tr s /\ all_done T s) /\
  forall tr s, exec n T W chk load store sim (init qs) tr s -> (forall e s', ~ step n T W chk load store sim s e s') ->
    all_done T s /\ fin s = n /\ forall k, k < n -> outcome chk load store sim (qs k) (ents s k).
Proof.
  intros n T W chk load store sim qs [H1 H2] (J & budget & G1 & G2) Tot HT HW. destruct (budget_bound n load qs budget) as (Bm & HB).
  assert (A1 : forall d d', J d -> sim d d' true -> J d') by (intros d d' A B; apply (G2 d d' A B)).
  assert (A2 : forall d d', J d -> sim d d' true -> budget d' < budget d) by (intros d d' A B; apply (G2 d d' A B)).
  split.
  - apply (run_out n T W chk load store sim qs H1 H2 J budget Bm G1 A1 HB A2 Tot (S (measure n T W budget Bm (init qs))) 0 [] (init qs)); [constructor|lia].
  - intros tr s E St.
    assert (AD : all_done T s).
    { intros t Ht. destruct (pcs s t) eqn:Ep; auto; exfalso;
        (destruct (progress n T W chk load store sim qs H1 H2 tr s t Tot E Ht) as (e & s' & S & _); [congruence|exact (St e s' S)]). }
    split; [exact AD|]. split; [exact (finished_eq n T W chk load store sim qs H1 H2 tr s HT HW E AD)|].
    intros k Hk. exact (proj2 (done_all n T W chk load store sim qs H1 H2 tr s HT HW E AD k Hk)).
Qed.

(** ** One pass of each loop *)
Import SimModel EndcondModel.
Local Open Scope R_scope.

Definition passes_on (f : st -> st) : Prop := forall s, running (f s) = true -> running s = true /\ at_ (f s) = at_ s /\ err (f s) = err s.
Lemma on_flag b m : passes_on (flag b m).
Proof. intros s. unfold flag. destruct b; cbn [running at_ err]; [discriminate|auto]. Qed.
Lemma flag_false b m s : running (flag b m s) = true -> b = false.
Proof. unfold flag. destruct b; cbn; auto. Qed.
Lemma on_bounces b : passes_on (set_bounces b).
Proof. intros s. cbn. auto. Qed.
Lemma on_comp f g : passes_on f -> passes_on g -> passes_on (fun s => g (f s)).
Proof. intros F G s H. destruct (G _ H) as (A & B & C). destruct (F _ A) as (A1 & B1 & C1). rewrite B, C. auto. Qed.
Lemma on_tlim o k : passes_on (check_tlim o k).
Proof.
  intros s. unfold check_tlim. destruct (on o endcond_tlim); [|auto]. cbv zeta. intros H.
  destruct (on_flag _ _ _ H) as (A & -> & ->). destruct (on_flag _ _ _ A) as (A2 & -> & ->). destruct (on_flag _ _ _ A2) as (A3 & -> & ->). auto.
Qed.
Lemma on_wall_fo w o qi : passes_on (check_wall_fo w o qi).
Proof.
  intros s. unfold check_wall_fo. destruct (on o endcond_wall); [|auto]. destruct (wall_of _ _ _). destruct (Z.ltb 0 _); [|auto].
  cbn. discriminate.
Qed.
Lemma on_wall w o qi : passes_on (check_wall w o qi).
Proof.
  intros s. unfold check_wall. destruct (on o endcond_wall); [|auto]. destruct (wall_of _ _ _). destruct (Z.ltb 0 _); [|auto].
  cbn. discriminate.
Qed.
Lemma on_energy t o k e : passes_on (check_energy t o k e).
Proof.
  intros s. unfold check_energy. destruct (_ || _)%bool; [|auto]. cbv zeta. destruct (t _ _ _ _ _) as [er T]. intros H.
  destruct (on_flag _ _ _ H) as (A & -> & ->). destruct (on_flag _ _ _ A) as (A2 & -> & ->). destruct (Z.eqb er 0); [auto|cbn in A2; discriminate].
Qed.
Lemma on_rho o k : passes_on (check_rho o k).
Proof. apply (on_comp _ _ (on_flag _ _) (on_flag _ _)). Qed.
Lemma on_orbits b o k : passes_on (check_orbits b o k).
Proof. intros s. unfold check_orbits. cbv zeta. destruct (_ && _ && _)%bool; [apply on_flag|]. destruct (_ && _)%bool; [apply on_flag|auto]. Qed.
Lemma on_cpu o k : passes_on (check_cpu o k).
Proof. apply on_flag. Qed.
Lemma on_clear : passes_on clear_if_error.
Proof. intros s. unfold clear_if_error. destruct (Z.eqb _ _); cbn; auto. Qed.
Lemma Rltb_le x y : Rltb x y = false -> y <= x.
Proof. unfold Rltb. destruct (Rlt_dec x y); [discriminate|]. lra. Qed.

(** what a marker that goes on satisfies *)
Definition within (o : opts) (kf : kin) (s s' : st) : Prop :=
  running s = true /\ at_ s' = at_ s /\ err s' = err s /\
  (on o endcond_tlim = true -> mileage kf <= max_mileage o /\ (if reverse_time o then lim_simtime o <= q_time (at_ s) else q_time (at_ s) <= lim_simtime o)) /\
  (on o endcond_cpumax = true -> cputime kf <= max_cputime o).
Lemma tlim_within o k s : running (check_tlim o k s) = true -> on o endcond_tlim = true ->
  mileage k <= max_mileage o /\ (if reverse_time o then lim_simtime o <= q_time (at_ s) else q_time (at_ s) <= lim_simtime o).
Proof.
  unfold check_tlim. intros H E. rewrite E in H. cbv zeta in H. pose proof (flag_false _ _ _ H) as F1. destruct (on_flag _ _ _ H) as (H1 & _).
  pose proof (flag_false _ _ _ H1) as F2. destruct (on_flag _ _ _ H1) as (H2 & _). pose proof (flag_false _ _ _ H2) as F3.
  split; [exact (Rltb_le _ _ F1)|]. destruct (reverse_time o); cbn [negb andb] in *; apply Rltb_le; assumption.
Qed.
Lemma cpu_within o k s : running (check_cpu o k s) = true -> on o endcond_cpumax = true -> cputime k <= max_cputime o.
Proof. unfold check_cpu. intros H E. apply flag_false in H. rewrite E in H. apply Rltb_le. exact H. Qed.

Lemma fo_within wall temp ek o ki qi kf s : running (check_fo wall temp ek o ki qi kf s) = true -> within o kf s (check_fo wall temp ek o ki qi kf s).
Proof.
  unfold check_fo. destruct (running s) eqn:R; [|congruence]. cbv zeta. intros H. unfold within.
  destruct (on_clear _ H) as (H1 & -> & ->). destruct (on_flag _ _ _ H1) as (H2 & -> & ->). destruct (on_flag _ _ _ H2) as (H3 & -> & ->).
  pose proof (cpu_within _ _ _ H3) as C. destruct (on_cpu _ _ _ H3) as (H4 & -> & ->). destruct (on_orbits _ _ _ _ H4) as (H5 & -> & ->).
  destruct (on_rho _ _ _ H5) as (H6 & -> & ->). destruct (on_energy _ _ _ _ _ H6) as (H7 & -> & ->). destruct (on_wall_fo _ _ _ _ H7) as (H8 & -> & ->).
  pose proof (tlim_within _ _ _ H8) as L. destruct (on_tlim _ _ _ H8) as (H9 & -> & ->). cbn [set_bounces at_ err] in *. auto.
Qed.
Lemma gc_within wall temp ek o ki qi kf s : running (check_gc wall temp ek o ki qi kf s) = true -> within o kf s (check_gc wall temp ek o ki qi kf s).
Proof.
  unfold check_gc. destruct (running s) eqn:R; [|congruence]. cbv zeta. intros H. unfold within.
  destruct (on_clear _ H) as (H1 & -> & ->). destruct (on_flag _ _ _ H1) as (H3 & -> & ->).
  pose proof (cpu_within _ _ _ H3) as C. destruct (on_cpu _ _ _ H3) as (H4 & -> & ->). destruct (on_orbits _ _ _ _ H4) as (H5 & -> & ->).
  destruct (on_rho _ _ _ H5) as (H6 & -> & ->). destruct (on_energy _ _ _ _ _ H6) as (H7 & -> & ->). destruct (on_wall _ _ _ _ H7) as (H8 & -> & ->).
  pose proof (tlim_within _ _ _ H8) as L. destruct (on_tlim _ _ _ H8) as (H9 & -> & ->). cbn [set_bounces at_ err] in *. auto.
Qed.
Lemma ml_within wall o qi kf s : running (check_ml wall o qi kf s) = true -> within o kf s (check_ml wall o qi kf s).
Proof.
  unfold check_ml. destruct (running s) eqn:R; [|congruence]. cbv zeta. intros H. unfold within.
  pose proof (cpu_within _ _ _ H) as C. destruct (on_cpu _ _ _ H) as (H4 & -> & ->). destruct (on_orbits _ _ _ _ H4) as (H5 & -> & ->).
  destruct (on_rho _ _ _ H5) as (H7 & -> & ->). destruct (on_wall _ _ _ _ H7) as (H8 & -> & ->).
  pose proof (tlim_within _ _ _ H8) as L. destruct (on_tlim _ _ _ H8) as (H9 & -> & ->). auto.
Qed.

Section passes.
Context {X : Type}.
Notation marker := (marker X).
Local Opaque Rmult.

Lemma calm_id : calm (fun (p : marker) h => (p, 1)).
Proof. intros p h. cbn. auto 10. Qed.

(** the bookkeeping fields *)
Definition kept (p q : marker) : Prop := k_time q = k_time p /\ k_mileage q = k_mileage p /\ k_cputime q = k_cputime p /\ k_id q = k_id p /\ (k_run q = true -> k_run p = true /\ k_err q = k_err p).
Lemma kept_refl p : kept p p. Proof. unfold kept. auto 10. Qed.
Lemma kept_trans p q r : kept p q -> kept q r -> kept p r.
Proof. intros (A1 & A2 & A3 & A4 & A5) (B1 & B2 & B3 & B4 & B5). unfold kept. rewrite B1, B2, B3, B4. repeat (split; [auto; fail|]). intros H. destruct (B5 H) as [C1 C2]. destruct (A5 C1) as [D1 D2]. split; congruence. Qed.
Lemma kept_calm (f : physics X) p h : calm f -> kept p (fst (f p h)).
Proof.
  intros C. destruct (C p h) as (A1 & A2 & A3 & A4 & A5 & A6). unfold kept. repeat (split; [auto; fail|]). intros H. split; [|auto].
  destruct (k_run p) eqn:R; auto. rewrite (A5 eq_refl) in H. congruence.
Qed.
Lemma kept_check p ho hn : kept p (fst (SimModel.check p ho hn)).
Proof. unfold SimModel.check. destruct (_ && _)%bool; cbn [fst]; [|apply kept_refl]. unfold kept, stop. cbn. repeat split; auto; discriminate. Qed.

Lemma fof_run o (w : pass X) p h : calm_pass w -> let q := fst (fof_pass o w p h) in (k_mileage q = k_mileage p \/ k_mileage q = k_mileage p + h) /\ (k_run q = true ->
  k_run p = true /\ k_mileage q = k_mileage p + h /\ k_time q = k_time p + dir (o_rev o) * h /\ k_cputime q = k_cputime p + w_cpu w /\ k_id q = k_id p /\ k_err q = k_err p).
Proof.
  intros (C1 & C2 & C3). unfold fof_pass. cbv zeta.
  set (h1 := if o_rev o then - h else h). replace (if o_rev o then - h1 else h1) with h by (unfold h1; destruct (o_rev o); ring).
  set (p1 := if o_orb o then fst (w_orb w p h1) else p). set (p2 := if o_col o then fst (w_col w p1 h) else p1). set (p3 := if o_icrh o then fst (w_rf w p2 h) else p2).
  assert (K : kept p p3).
  { apply (kept_trans _ p2); [apply (kept_trans _ p1)|].
    - unfold p1. destruct (o_orb o); [now apply kept_calm|apply kept_refl].
    - unfold p2. destruct (o_col o); [now apply kept_calm|apply kept_refl].
    - unfold p3. destruct (o_icrh o); [now apply kept_calm|apply kept_refl]. }
  destruct K as (K1 & K2 & K3 & K4 & K5). destruct (k_run p3) eqn:R; cbn [fst]; [|split; [auto|congruence]].
  split; [right; unfold add_cpu, advance; cbn [k_mileage]; now rewrite K2|]. intros _. destruct (K5 eq_refl) as [K6 K7].
  unfold add_cpu, advance. cbn [k_mileage k_time k_cputime k_id k_err]. rewrite K1, K2, K3, K4, K7. auto 10.
Qed.

(** without RF, and no rejected step left over *)
Lemma gcf_run o (w : pass X) p h hdef recom : calm_pass w -> o_icrh o = false -> 0 <= recom ->
  let '(q, hs, _) := gcf_pass o w p (h, hdef, recom) in hs = (h, hdef, recom) /\ (k_run q = true ->
  k_run p = true /\ k_mileage q = k_mileage p + h /\ k_time q = k_time p + dir (o_rev o) * h /\ k_cputime q = k_cputime p + w_cpu w /\ k_id q = k_id p /\ k_err q = k_err p).
Proof.
  intros (C1 & C2 & C3) IC HR. unfold gcf_pass. cbv zeta. rewrite IC.
  set (h1 := if o_rev o then - h else h). replace (if o_rev o then - h1 else h1) with h by (unfold h1; destruct (o_rev o); ring).
  set (p1 := if o_orb o then fst (w_orb w p h1) else p). set (p2 := if o_col o then fst (w_col w p1 h) else p1).
  assert (K : kept p p2).
  { apply (kept_trans _ p1).
    - unfold p1. destruct (o_orb o); [now apply kept_calm|apply kept_refl].
    - unfold p2. destruct (o_col o); [now apply kept_calm|apply kept_refl]. }
  destruct (SimProofs.rlt_spec recom 0) as [N|_]; [lra|].
  destruct K as (K1 & K2 & K3 & K4 & K5). destruct (k_run p2) eqn:R; cbn [fst]; [|split; [auto|congruence]]. split; [auto|]. intros _. destruct (K5 eq_refl) as [K6 K7].
  unfold add_cpu, advance. cbn [k_mileage k_time k_cputime k_id k_err]. rewrite K1, K2, K3, K4, K7. auto 10.
Qed.

(** a marker with a positive id pays for every pass, accepted or not *)
Lemma gca_run_cpu o (w : pass X) p h : calm_pass w -> (0 < k_id p)%Z -> k_err p = 0%Z ->
  let '(q, h', _) := gca_pass o w p h in k_run q = true ->
  k_cputime q = k_cputime p + w_cpu w /\ k_id q = k_id p /\ k_err q = 0%Z.
Proof.
  intros (C1 & C2 & C3) ID ER. unfold gca_pass. cbv zeta. set (h1 := if o_rev o then - h else h).
  destruct (if o_orb o then _ else _) as [[[p1 ho1] hn1] h2] eqn:E1.
  assert (K1 : kept p p1).
  { revert E1. destruct (o_orb o); [|intros [= <- <- <- <-]; apply kept_refl]. pose proof (kept_calm _ p h1 C1) as K. destruct (w_orb w p h1) as [pa ha]. cbn [fst] in K.
    pose proof (kept_check pa (if o_rev o then - ha else ha) 1) as KC. destruct (SimModel.check _ _ _) as [pb hb]. cbn [fst] in KC. intros [= <- <- <- <-]. eapply kept_trans; eauto. }
  destruct (if o_col o then _ else _) as [[p2 ho2] hn2] eqn:E2.
  assert (K2 : kept p1 p2).
  { revert E2. destruct (o_col o); [|intros [= <- <- <-]; apply kept_refl]. pose proof (kept_calm _ p1 h2 C2) as K. destruct (w_col w p1 h2) as [pa ha]. cbn [fst] in K.
    pose proof (kept_check pa ha hn1) as KC. destruct (SimModel.check _ _ _) as [pb hb]. cbn [fst] in KC. intros [= <- <- <-]. eapply kept_trans; eauto. }
  destruct (if o_icrh o then _ else _) as [[p3 ho3] hn3] eqn:E3.
  assert (K3 : kept p2 p3).
  { revert E3. destruct (o_icrh o); [|intros [= <- <- <-]; apply kept_refl]. pose proof (kept_calm _ p2 h2 C3) as K. destruct (w_rf w p2 h2) as [pa ha]. cbn [fst] in K.
    pose proof (kept_check pa ha hn2) as KC. destruct (SimModel.check _ _ _) as [pb hb]. cbn [fst] in KC. intros [= <- <- <-]. eapply kept_trans; eauto. }
  assert (K : kept p p3) by (eapply kept_trans; [eapply kept_trans|]; eauto). clear K1 K2 K3 E1 E2 E3.
  destruct K as (K1 & K2 & K3 & K4 & K5).
  assert (ID3 : (0 <? k_id p3)%Z = true) by (apply Z.ltb_lt; congruence). rewrite ID3. cbn [andb].
  destruct (Z.eqb_spec (k_err p3) 0) as [E0|E0].
  - match goal with |- context [rlt ?h 0] => set (hn4 := h) end.
    destruct (rlt hn4 0).
    + destruct (k_run p) eqn:R; [|congruence]. intros _. unfold add_cpu. cbn. auto.
    + destruct (k_run p3) eqn:R; [|congruence]. intros _. unfold add_cpu, advance. cbn [k_cputime k_id k_err]. destruct (K5 eq_refl). rewrite K3, K4. auto.
  - intros R. destruct (K5 R) as [_ K6]. congruence.
Qed.

Lemma mla_run_cpu c o (w : pass X) p h : calm_pass w -> k_err p = 0%Z ->
  let '(q, h', _) := mla_pass c o w p h in k_run q = true ->
  k_cputime q = k_cputime p + w_cpu w /\ k_id q = k_id p /\ k_err q = 0%Z.
Proof.
  intros (C1 & C2 & C3) ER. unfold mla_pass. cbv zeta. set (h1 := if o_rev o then - h else h).
  destruct (if o_orb o then _ else _) as [[p1 ho1] hn1] eqn:E1.
  assert (K1 : kept p p1).
  { revert E1. destruct (o_orb o); [|intros [= <- <- <-]; apply kept_refl]. pose proof (kept_calm _ p h1 C1) as K. destruct (w_orb w p h1) as [pa ha]. cbn [fst] in K.
    pose proof (kept_check pa (if o_rev o then - ha else ha) 100) as KC. destruct (SimModel.check _ _ _) as [pb hb]. cbn [fst] in KC. intros [= <- <- <-]. eapply kept_trans; eauto. }
  destruct K1 as (K1 & K2 & K3 & K4 & K5). clear E1.
  destruct (Z.eqb_spec (k_err p1) 0) as [E0|E0].
  - match goal with |- context [rlt ?h 0] => set (hn4 := h) end.
    destruct (rlt hn4 0).
    + destruct (k_run p) eqn:R; [|congruence]. intros _. unfold add_cpu. cbn. auto.
    + destruct (k_run p1) eqn:R; [|congruence]. intros _. unfold add_cpu, advance. cbn [k_cputime k_id k_err]. destruct (K5 eq_refl). rewrite K3, K4. auto.
  - intros R. destruct (K5 R) as [_ K6]. congruence.
Qed.

(** ** Whole lives of markers *)
Inductive going {D} (sim : D -> D -> bool -> Prop) : nat -> D -> D -> Prop :=
| go_0 d : going sim 0 d d
| go_S m d d1 d2 : going sim m d d1 -> sim d1 d2 true -> going sim (S m) d d2.

(** passes in a world where physics modules behave; in the adaptive loops every pass takes
    at least [c] of CPU time *)
Definition fo_sim (oo : options) (eo : opts) (h : R) (p p' : marker) (r : bool) : Prop :=
  exists v, calm_pass (v_pass v) /\ fo_turn oo eo h v p p' r.
Definition gcf_sim (oo : options) (eo : opts) (d d' : marker * (R * R * R)) (r : bool) : Prop :=
  exists v, calm_pass (v_pass v) /\ gcf_turn oo eo v d d' r.
Definition gca_sim (c : R) (oo : options) (eo : opts) (d d' : marker * R) (r : bool) : Prop :=
  exists v, calm_pass (v_pass v) /\ c <= w_cpu (v_pass v) /\ gca_turn oo eo v d d' r.
Definition mla_sim (c lightc : R) (oo : options) (eo : opts) (d d' : marker * R) (r : bool) : Prop :=
  exists v, calm_pass (v_pass v) /\ c <= w_cpu (v_pass v) /\ mla_turn lightc oo eo v d d' r.
(** end conditions in force *)
Definition time_limit (eo : opts) : Prop := Z.land (active eo) 1 <> 0%Z.
Definition cpu_limit (eo : opts) : Prop := Z.land (active eo) 256 <> 0%Z.
Lemma time_limit_on eo : time_limit eo -> on eo endcond_tlim = true.
Proof. unfold time_limit, on, endcond_tlim. intros H. destruct (Z.eqb_spec (Z.land (active eo) 1) 0); [contradiction|reflexivity]. Qed.
Lemma cpu_limit_on eo : cpu_limit eo -> on eo endcond_cpumax = true.
Proof. unfold cpu_limit, on, endcond_cpumax. intros H. destruct (Z.eqb_spec (Z.land (active eo) 256) 0); [contradiction|reflexivity]. Qed.
(** before the end of the simulated time, in the direction of the simulation *)
Definition in_time (eo : opts) (t : R) : Prop := if reverse_time eo then lim_simtime eo <= t else t <= lim_simtime eo.

Lemma fo_sim_on oo eo h p p' r : fo_sim oo eo h p p' r ->
  (k_mileage p' = k_mileage p \/ k_mileage p' = k_mileage p + h) /\ (r = true ->
  k_mileage p' = k_mileage p + h /\ k_time p' = k_time p + dir (o_rev oo) * h /\
  (time_limit eo -> k_mileage p' <= max_mileage eo /\ in_time eo (k_time p')) /\ (cpu_limit eo -> k_cputime p' <= max_cputime eo)).
Proof.
  intros (v & C & S & T). cbv zeta in T. destruct T as [-> ->]. destruct (fof_run oo _ p h C) as [M A].
  set (q := fst (fof_pass oo (v_pass v) p h)) in *. destruct S as (S1 & S2 & S3 & S4 & S5). unfold ended. cbn [k_mileage k_time k_cputime]. split; [exact M|]. intros R.
  destruct (fo_within _ _ _ _ _ _ _ _ R) as (W1 & -> & W3 & W4 & W5). rewrite S1, S3 in W4. rewrite S2 in W5.
  destruct (A ltac:(congruence)) as (A0 & A1 & A2 & _). rewrite S3. split; [exact A1|]. split; [exact A2|]. unfold in_time.
  split; [intros L; apply W4; now apply time_limit_on|intros L; apply W5; now apply cpu_limit_on].
Qed.

Theorem fo_passes : forall oo eo h m (p p' : marker), time_limit eo -> going (fo_sim oo eo h) m p p' -> (0 < m)%nat ->
  k_mileage p' = k_mileage p + INR m * h /\ k_time p' = k_time p + dir (o_rev oo) * (INR m * h) /\
  k_mileage p' <= max_mileage eo /\ in_time eo (k_time p').
Proof.
  intros oo eo h m p p' TL G. induction G as [|m d d1 d2 G IH S]; intros M; [lia|].
  destruct (fo_sim_on _ _ _ _ _ _ S) as (_ & A). destruct (A eq_refl) as (A1 & A2 & A3 & _). destruct (A3 TL) as [A4 A5]. rewrite S_INR.
  destruct m as [|m].
  - inversion G; subst. cbn [INR]. repeat (split; auto); rewrite ?A1, ?A2; ring.
  - destruct (IH ltac:(lia)) as (I1 & I2 & _). repeat (split; auto); rewrite ?A1, ?A2, ?I1, ?I2; ring.
Qed.
(** the last pass adds at most one step beyond the limit *)
Theorem fo_last_pass : forall oo eo h m (p p' p'' : marker), time_limit eo -> 0 < h -> k_mileage p <= max_mileage eo ->
  going (fo_sim oo eo h) m p p' -> fo_sim oo eo h p' p'' false -> k_mileage p'' <= max_mileage eo + h.
Proof.
  intros oo eo h m p p' p'' TL H0 L G Q. destruct (fo_sim_on _ _ _ _ _ _ Q) as (M & _).
  assert (k_mileage p' <= max_mileage eo).
  { destruct m as [|m]; [inversion G; subst; exact L|]. apply (fo_passes oo eo h (S m) p p' TL G). lia. }
  destruct M as [-> | ->]; lra.
Qed.

(** passes left before the quantity [x] growing by [c] each time exceeds [M] *)
Definition left_over (M c x : R) : nat := Z.to_nat (up ((M - x) / c)).
Lemma left_over_less M c x x' : 0 < c -> x + c <= x' -> x' <= M -> (left_over M c x' < left_over M c x)%nat.
Proof.
  intros C L1 L2. unfold left_over.
  assert (A : (M - x') / c <= (M - x) / c - 1).
  { apply (Rmult_le_reg_r c); [exact C|]. replace ((M - x') / c * c) with (M - x') by (field; lra). replace (((M - x) / c - 1) * c) with (M - x - c) by (field; lra). lra. }
  assert (B : 0 <= (M - x') / c) by (apply Rmult_le_pos; [lra|left; apply Rinv_0_lt_compat; exact C]).
  destruct (archimed ((M - x) / c)) as [U1 U2]. destruct (archimed ((M - x') / c)) as [V1 V2].
  set (a := up ((M - x) / c)) in *. set (b := up ((M - x') / c)) in *.
  assert (G0 : (0 < b)%Z) by (apply lt_IZR; lra).
  assert (G1 : (b < a + 1)%Z) by (apply lt_IZR; rewrite plus_IZR; lra).
  assert (G2 : (b <> a)%Z). { intros E. rewrite E in *. lra. }
  lia.
Qed.

(** every marker has its own step, set when it enters the slot *)
Definition fo_sim_h (oo : options) (eo : opts) (d d' : marker * R) (r : bool) : Prop :=
  snd d' = snd d /\ fo_sim oo eo (snd d) (fst d) (fst d') r.
Theorem fo_limited {P : Type} : forall n (load : entry P -> @loaded (marker * R)) qs oo eo, time_limit eo ->
  (forall k d, (k < n)%nat -> load (qs k) = LOk d -> 0 < snd d) -> limited n load (fo_sim_h oo eo) qs.
Proof.
  intros n load qs oo eo TL HL. exists (fun d => 0 < snd d), (fun d => left_over (max_mileage eo) (snd d) (k_mileage (fst d))). split; [exact HL|].
  intros d d' H0 [E S]. rewrite E. split; [exact H0|]. destruct (fo_sim_on _ _ _ _ _ _ S) as (_ & A). destruct (A eq_refl) as (A1 & _ & A3 & _).
  apply left_over_less; [exact H0|lra|now apply A3].
Qed.

Lemma gcf_sim_on oo eo p h hdef recom d' r : o_icrh oo = false -> 0 <= recom -> gcf_sim oo eo (p, (h, hdef, recom)) d' r ->
  snd d' = (h, hdef, recom) /\ (r = true -> k_mileage (fst d') = k_mileage p + h /\
  (time_limit eo -> k_mileage (fst d') <= max_mileage eo /\ in_time eo (k_time (fst d')))).
Proof.
  intros IC HR (v & C & T). unfold gcf_turn in T. cbn [fst snd] in T. pose proof (gcf_run oo (v_pass v) p h hdef recom C IC HR) as A. destruct (gcf_pass _ _ _ _) as [[q hs] e].
  destruct A as [-> A]. destruct T as ((S1 & S2 & S3 & S4 & S5) & -> & ->). cbn [fst snd]. split; [reflexivity|]. intros R. unfold ended. cbn [k_mileage k_time].
  destruct (gc_within _ _ _ _ _ _ _ _ R) as (W1 & -> & W3 & W4 & W5). rewrite S1, S3 in W4. rewrite S3.
  destruct (A ltac:(congruence)) as (A0 & A1 & A2 & _). split; [exact A1|]. intros L. apply W4. now apply time_limit_on.
Qed.
Theorem gcf_limited {P : Type} : forall n (load : entry P -> @loaded (marker * (R * R * R))) qs oo eo, time_limit eo -> o_icrh oo = false ->
  (forall k d, (k < n)%nat -> load (qs k) = LOk d -> exists p h hdef, d = (p, (h, hdef, 1)) /\ 0 < h) -> limited n load (gcf_sim oo eo) qs.
Proof.
  intros n load qs oo eo TL IC HL. exists (fun d => exists p h hdef, d = (p, (h, hdef, 1)) /\ 0 < h), (fun d => left_over (max_mileage eo) (fst (fst (snd d))) (k_mileage (fst d))).
  split; [exact HL|]. intros d d' (p & h & hdef & -> & H0) S. destruct (gcf_sim_on _ _ _ _ _ _ _ _ IC Rle_0_1 S) as (B & A). destruct (A eq_refl) as (A1 & A2). destruct d' as [p' hs]. cbn [fst snd] in *. subst hs.
  split; [eauto|]. cbn [fst snd]. apply left_over_less; [exact H0|lra|now apply A2].
Qed.

Lemma gca_sim_on c oo eo p h d' : (0 < k_id p)%Z -> k_err p = 0%Z -> gca_sim c oo eo (p, h) d' true ->
  k_cputime p + c <= k_cputime (fst d') /\ (cpu_limit eo -> k_cputime (fst d') <= max_cputime eo) /\ (0 < k_id (fst d'))%Z /\ k_err (fst d') = 0%Z.
Proof.
  intros ID ER (v & C & HC & T). unfold gca_turn in T. cbn [fst snd] in T. pose proof (gca_run_cpu oo (v_pass v) p h C ID ER) as A. destruct (gca_pass _ _ _ _) as [[q hs] e].
  destruct T as ((S1 & S2 & S3 & S4 & S5) & -> & R). cbn [fst snd]. symmetry in R. unfold ended. cbn [k_cputime k_id k_err].
  destruct (gc_within _ _ _ _ _ _ _ _ R) as (W1 & _ & -> & W4 & W5). rewrite S2 in W5. rewrite S5.
  destruct (A ltac:(congruence)) as (A0 & A1 & A2). rewrite A0, A1. split; [lra|]. split; [|split; auto]. intros L. rewrite <- A0. apply W5. now apply cpu_limit_on.
Qed.
Lemma mla_sim_on c lc oo eo p h d' : k_err p = 0%Z -> mla_sim c lc oo eo (p, h) d' true ->
  k_cputime p + c <= k_cputime (fst d') /\ (cpu_limit eo -> k_cputime (fst d') <= max_cputime eo) /\ k_err (fst d') = 0%Z.
Proof.
  intros ER (v & C & HC & T). unfold mla_turn in T. cbn [fst snd] in T. pose proof (mla_run_cpu lc oo (v_pass v) p h C ER) as A. destruct (mla_pass _ _ _ _ _) as [[q hs] e].
  destruct T as ((S1 & S2 & S3 & S4 & S5) & -> & R). cbn [fst snd]. symmetry in R. unfold ended. cbn [k_cputime k_id k_err].
  destruct (ml_within _ _ _ _ _ R) as (W1 & _ & -> & W4 & W5). rewrite S2 in W5. rewrite S5.
  destruct (A ltac:(congruence)) as (A0 & A1 & A2). rewrite A0. split; [lra|]. split; [|auto]. intros L. rewrite <- A0. apply W5. now apply cpu_limit_on.
Qed.
(** every pass counts, also the rejected ones *)
Theorem gca_passes : forall c oo eo m (p : marker) h d', cpu_limit eo -> (0 < k_id p)%Z -> k_err p = 0%Z ->
  going (gca_sim c oo eo) m (p, h) d' -> (0 < m)%nat -> k_cputime p + INR m * c <= k_cputime (fst d') <= max_cputime eo.
Proof.
  intros c oo eo m p h d' CL ID ER G. 
  assert (A : k_cputime p + INR m * c <= k_cputime (fst d') /\ ((0 < m)%nat -> k_cputime (fst d') <= max_cputime eo) /\ (0 < k_id (fst d'))%Z /\ k_err (fst d') = 0%Z).
  { remember (p, h) as d eqn:E. induction G as [|m d d1 d2 G IH S].
    - subst d. cbn [fst INR]. split; [lra|]. split; [lia|auto].
    - destruct (IH E) as (I1 & _ & I3 & I4). destruct d1 as [p1 h1]. cbn [fst] in *. destruct (gca_sim_on _ _ _ _ _ _ I3 I4 S) as (J1 & J2 & J3 & J4). rewrite S_INR.
      split; [lra|]. auto. }
  intros M. destruct A as (A1 & A2 & _). auto.
Qed.
Theorem gca_limited {P : Type} : forall n (load : entry P -> @loaded (marker * R)) qs c oo eo, cpu_limit eo -> 0 < c ->
  (forall k d, (k < n)%nat -> load (qs k) = LOk d -> (0 < k_id (fst d))%Z /\ k_err (fst d) = 0%Z) -> limited n load (gca_sim c oo eo) qs.
Proof.
  intros n load qs c oo eo CL C0 HL. exists (fun d => (0 < k_id (fst d))%Z /\ k_err (fst d) = 0%Z), (fun d => left_over (max_cputime eo) c (k_cputime (fst d))).
  split; [exact HL|]. intros [p h] d' [J1 J2] S. cbn [fst] in *. destruct (gca_sim_on _ _ _ _ _ _ J1 J2 S) as (A1 & A2 & A3 & A4). split; [auto|]. apply left_over_less; auto.
Qed.
Theorem mla_limited {P : Type} : forall n (load : entry P -> @loaded (marker * R)) qs c lc oo eo, cpu_limit eo -> 0 < c ->
  (forall k d, (k < n)%nat -> load (qs k) = LOk d -> k_err (fst d) = 0%Z) -> limited n load (mla_sim c lc oo eo) qs.
Proof.
  intros n load qs c lc oo eo CL C0 HL. exists (fun d => k_err (fst d) = 0%Z), (fun d => left_over (max_cputime eo) c (k_cputime (fst d))).
  split; [exact HL|]. intros [p h] d' J2 S. cbn [fst] in *. destruct (mla_sim_on _ _ _ _ _ _ _ J2 S) as (A1 & A2 & A4). split; [auto|]. apply left_over_less; auto.
Qed.

(** ** A world in which nothing happens: no wall, no temperature *)
Definition plain_kin (q : marker) : kin := {| mileage := k_mileage q; cputime := k_cputime q; rho := 0; theta := 0; charge := 0; mass := 0;
  p_r := 0; p_phi := 0; p_z := 0; B_r := 0; B_phi := 0; B_z := 0; mu := 0; ppar := 0 |}.
Definition plain_st (q : marker) : st := mkst (mkpos 1 (k_phi q) 0 (k_time q)) 0 0 0 (k_run q) (k_err q).
Definition plain (w : pass X) (q : marker) : world X :=
  World w (fun _ _ _ _ _ _ => (0%Z, 0)) (fun _ _ _ _ _ => (0%Z, 0)) (fun _ _ => 0) (fun _ _ _ _ => 0) (plain_kin q) (mkpos 1 0 0 0) (plain_kin q) (plain_st q) (k_rest q).
Lemma plain_sees q : sees q (plain_kin q) (plain_st q).
Proof. unfold sees. cbn. auto. Qed.
(** physics that does nothing and proposes [g h] *)
Definition lazy (g : R -> R) : physics X := fun p h => (p, g h).
Lemma lazy_calm g : calm (lazy g).
Proof. intros p h. cbn. auto 10. Qed.
Definition lazy_pass (g : R -> R) (c : R) : pass X := Pass (lazy g) (lazy g) (lazy g) c 1.
Lemma lazy_pass_calm g c : calm_pass (lazy_pass g c).
Proof. repeat split; auto. Qed.

Lemma fo_total oo eo h (p : marker) : exists p' r, fo_sim oo eo h p p' r.
Proof.
  set (w := lazy_pass (fun _ => 1) 1). set (v := plain w (fst (fof_pass oo w p h))).
  do 2 eexists. exists v. split; [apply lazy_pass_calm|]. unfold fo_turn. split; [apply plain_sees|]. cbv zeta. split; reflexivity.
Qed.
Lemma fo_total_h oo eo d : exists d' r, fo_sim_h oo eo d d' r.
Proof. destruct (fo_total oo eo (snd d) (fst d)) as (p' & r & H). exists (p', snd d), r. split; [reflexivity|exact H]. Qed.
Lemma gcf_total oo eo d : exists d' r, gcf_sim oo eo d d' r.
Proof.
  set (w := lazy_pass (fun _ => 1) 1). destruct (gcf_pass oo w (fst d) (snd d)) as [[q hs] e] eqn:E.
  do 2 eexists. exists (plain w q). split; [apply lazy_pass_calm|]. unfold gcf_turn. cbn [plain v_pass]. rewrite E.
  split; [apply plain_sees|]. cbv zeta. split; reflexivity.
Qed.
Lemma gca_total c oo eo d : exists d' r, gca_sim c oo eo d d' r.
Proof.
  set (w := lazy_pass (fun _ => 1) c). destruct (gca_pass oo w (fst d) (snd d)) as [[q hs] e] eqn:E.
  do 2 eexists. exists (plain w q). split; [apply lazy_pass_calm|]. split; [apply Rle_refl|]. unfold gca_turn. cbn [plain v_pass]. rewrite E.
  split; [apply plain_sees|]. cbv zeta. split; reflexivity.
Qed.
Lemma mla_total c lc oo eo d : exists d' r, mla_sim c lc oo eo d d' r.
Proof.
  set (w := lazy_pass (fun _ => 1) c). destruct (mla_pass lc oo w (fst d) (snd d)) as [[q hs] e] eqn:E.
  do 2 eexists. exists (plain w q). split; [apply lazy_pass_calm|]. split; [apply Rle_refl|]. unfold mla_turn. cbn [plain v_pass]. rewrite E.
  split; [apply plain_sees|]. cbv zeta. split; reflexivity.
Qed.

(** ** Whole simulations *)
(** the simulation ends: a bound on the steps of all threads together; whatever the order
    of the steps, the end is reached, and then every marker has its result *)
Definition simulation_ends {P D : Type} (n T W : nat) (chk : bool) (load : entry P -> @loaded D) (store : D -> entry P -> entry P) (sim : D -> D -> bool -> Prop) (qs : nat -> entry P) : Prop :=
  (exists N, forall m tr s, nsteps n T W chk load store sim (init qs) m tr s -> (m <= N)%nat) /\
  (exists tr s, exec n T W chk load store sim (init qs) tr s /\ all_done T s) /\
  forall tr s, exec n T W chk load store sim (init qs) tr s -> (forall e s', ~ QueueModel.step n T W chk load store sim s e s') ->
    all_done T s /\ fin s = n /\ forall k, (k < n)%nat -> outcome chk load store sim (qs k) (ents s k).

Lemma ends_of {P D : Type} n T W chk (load : entry P -> @loaded D) store sim qs : proper_queue n chk qs -> limited n load sim qs -> (forall d, exists d' r, sim d d' r) -> (0 < T)%nat -> (0 < W)%nat ->
  simulation_ends n T W chk load store sim qs.
Proof. intros G L Tot HT HW. split; [now apply queue_bounded|]. now apply queue_ends. Qed.

Theorem fo_ends {P : Type} : forall n T W chk (load : entry P -> @loaded (marker * R)) store qs oo eo,
  proper_queue n chk qs -> (0 < T)%nat -> (0 < W)%nat -> time_limit eo ->
  (forall k d, (k < n)%nat -> load (qs k) = LOk d -> 0 < snd d) ->
  simulation_ends n T W chk load store (fo_sim_h oo eo) qs.
Proof. intros. apply ends_of; auto; [now apply fo_limited|apply fo_total_h]. Qed.
Theorem gcf_ends {P : Type} : forall n T W chk (load : entry P -> @loaded (marker * (R * R * R))) store qs oo eo,
  proper_queue n chk qs -> (0 < T)%nat -> (0 < W)%nat -> time_limit eo -> o_icrh oo = false ->
  (forall k d, (k < n)%nat -> load (qs k) = LOk d -> exists p h hdef, d = (p, (h, hdef, 1)) /\ 0 < h) ->
  simulation_ends n T W chk load store (gcf_sim oo eo) qs.
Proof. intros. apply ends_of; auto; [now apply gcf_limited|apply gcf_total]. Qed.
Theorem gca_ends {P : Type} : forall n T W chk (load : entry P -> @loaded (marker * R)) store qs c oo eo,
  proper_queue n chk qs -> (0 < T)%nat -> (0 < W)%nat -> cpu_limit eo -> 0 < c ->
  (forall k d, (k < n)%nat -> load (qs k) = LOk d -> (0 < k_id (fst d))%Z /\ k_err (fst d) = 0%Z) ->
  simulation_ends n T W chk load store (gca_sim c oo eo) qs.
Proof. intros. apply ends_of; auto; [now apply gca_limited|apply gca_total]. Qed.
Theorem mla_ends {P : Type} : forall n T W chk (load : entry P -> @loaded (marker * R)) store qs c lc oo eo,
  proper_queue n chk qs -> (0 < T)%nat -> (0 < W)%nat -> cpu_limit eo -> 0 < c ->
  (forall k d, (k < n)%nat -> load (qs k) = LOk d -> k_err (fst d) = 0%Z) ->
  simulation_ends n T W chk load store (mla_sim c lc oo eo) qs.
Proof. intros. apply ends_of; auto; [now apply mla_limited|apply mla_total]. Qed.

(** ** What does not end *)
(** in the adaptive loop nothing is counted for a marker with id 0: no time or CPU limit
    ever stops it *)
Theorem gca_id_zero : forall c oo eo m (p : marker) h d', (k_id p <= 0)%Z -> going (gca_sim c oo eo) m (p, h) d' ->
  k_time (fst d') = k_time p /\ k_mileage (fst d') = k_mileage p /\ k_cputime (fst d') = k_cputime p.
Proof.
  intros c oo eo m p h d' ID G.
  assert (A : k_id (fst d') = k_id p /\ k_time (fst d') = k_time p /\ k_mileage (fst d') = k_mileage p /\ k_cputime (fst d') = k_cputime p).
  { remember (p, h) as d eqn:E. induction G as [|m d d1 d2 G IH S]; [subst d; cbn [fst]; auto|].
    destruct (IH E) as (I1 & I2 & I3 & I4). destruct d1 as [p1 h1]. cbn [fst] in *. clear IH G E. destruct S as (v & C & _ & T). unfold gca_turn in T. cbn [fst snd] in T.
    assert (K : let '(q, _, _) := gca_pass oo (v_pass v) p1 h1 in kept p1 q).
    { clear T. destruct C as (C1 & C2 & C3). unfold gca_pass. cbv zeta. set (ha := if o_rev oo then - h1 else h1).
      destruct (if o_orb oo then _ else _) as [[[pa ho1] hn1] h2] eqn:E1.
      assert (K1 : kept p1 pa).
      { revert E1. destruct (o_orb oo); [|intros [= <- <- <- <-]; apply kept_refl]. pose proof (kept_calm _ p1 ha C1) as K. destruct (w_orb (v_pass v) p1 ha) as [px hx]. cbn [fst] in K.
        pose proof (kept_check px (if o_rev oo then - hx else hx) 1) as KC. destruct (SimModel.check _ _ _) as [pb hb]. cbn [fst] in KC. intros [= <- <- <- <-]. eapply kept_trans; eauto. }
      destruct (if o_col oo then _ else _) as [[p2 ho2] hn2] eqn:E2.
      assert (K2 : kept pa p2).
      { revert E2. destruct (o_col oo); [|intros [= <- <- <-]; apply kept_refl]. pose proof (kept_calm _ pa h2 C2) as K. destruct (w_col (v_pass v) pa h2) as [px hx]. cbn [fst] in K.
        pose proof (kept_check px hx hn1) as KC. destruct (SimModel.check _ _ _) as [pb hb]. cbn [fst] in KC. intros [= <- <- <-]. eapply kept_trans; eauto. }
      destruct (if o_icrh oo then _ else _) as [[p3 ho3] hn3] eqn:E3.
      assert (K3 : kept p2 p3).
      { revert E3. destruct (o_icrh oo); [|intros [= <- <- <-]; apply kept_refl]. pose proof (kept_calm _ p2 h2 C3) as K. destruct (w_rf (v_pass v) p2 h2) as [px hx]. cbn [fst] in K.
        pose proof (kept_check px hx hn2) as KC. destruct (SimModel.check _ _ _) as [pb hb]. cbn [fst] in KC. intros [= <- <- <-]. eapply kept_trans; eauto. }
      assert (K : kept p1 p3) by (eapply kept_trans; [eapply kept_trans|]; eauto). clear K1 K2 K3 E1 E2 E3.
      pose proof K as (_ & _ & _ & K4 & _). assert (ID3 : (0 <? k_id p3)%Z = false) by (apply Z.ltb_ge; congruence). rewrite ID3. cbn [andb]. exact K. }
    destruct (gca_pass _ _ _ _) as [[q hs] e]. destruct K as (K1 & K2 & K3 & K4 & _).
    destruct T as ((S1 & S2 & S3 & S4 & S5) & -> & R). cbn [fst snd]. symmetry in R. unfold ended. cbn [k_time k_mileage k_cputime k_id].
    destruct (gc_within _ _ _ _ _ _ _ _ R) as (W1 & -> & _). rewrite S3. repeat split; congruence. }
  tauto.
Qed.

(** time and CPU limits in force, nothing else, and the marker within them *)
Definition only_limits (eo : opts) (p : marker) : Prop := active eo = 257%Z /\ sim_mode eo <> 3%Z /\ reverse_time eo = false /\
  k_mileage p <= max_mileage eo /\ k_time p <= lim_simtime eo /\ k_cputime p <= max_cputime eo.
Lemma Rltb_false x y : y <= x -> Rltb x y = false.
Proof. intros H. unfold Rltb. destruct (Rlt_dec x y); [lra|reflexivity]. Qed.
Lemma plain_check wall temp ek eo ki qi q : only_limits eo q -> ppar ki = 0 -> k_run q = true -> k_err q = 0%Z ->
  check_gc wall temp ek eo ki qi (plain_kin q) (plain_st q) = plain_st q.
Proof.
  intros (A & M & R0 & L1 & L2 & L3) PK RUN ER. unfold check_gc. cbn [plain_st running]. rewrite RUN. cbv zeta.
  cbn [plain_kin ppar mileage cputime]. rewrite PK, Rmult_0_l, (Rltb_false 0 0) by lra. unfold bounce, set_bounces.
  cbn [at_ bounces endcond walltile running err].
  set (s := mkst _ _ _ _ _ _). change (plain_st q) with s.
  assert (S1 : check_tlim eo (plain_kin q) s = s).
  { unfold check_tlim. cbn [plain_kin mileage]. rewrite R0, (Rltb_false _ _ L1). cbn [negb andb]. change (q_time (at_ s)) with (k_time q). rewrite (Rltb_false _ _ L2). unfold on. rewrite A. reflexivity. }
  fold (plain_kin q). rewrite S1.
  assert (S2 : check_wall wall eo qi s = s) by (unfold check_wall, on; rewrite A; reflexivity). rewrite S2.
  assert (S3 : forall e, check_energy temp eo (plain_kin q) e s = s) by (intros e; unfold check_energy, on; rewrite A; reflexivity). rewrite S3.
  assert (S4 : check_rho eo (plain_kin q) s = s) by (unfold check_rho, on; rewrite A; reflexivity). rewrite S4.
  assert (S5 : check_orbits true eo (plain_kin q) s = s). { unfold check_orbits, on. rewrite A. cbn. destruct (torandpol eo); reflexivity. } rewrite S5.
  assert (S6 : check_cpu eo (plain_kin q) s = s). { unfold check_cpu, on. rewrite A. cbn [plain_kin cputime]. rewrite (Rltb_false _ _ L3). reflexivity. } rewrite S6.
  destruct (Z.eqb_spec (sim_mode eo) 3) as [E|_]; [contradiction|]. cbn [andb flag]. unfold clear_if_error. change (err s) with (k_err q). rewrite ER. reflexivity.
Qed.
Lemma plain_ended q : ended q (plain_st q) (k_rest q) = q.
Proof. destruct q. reflexivity. Qed.

Lemma gca_lazy_idle oo c g (p : marker) h : o_orb oo = true -> k_id p = 0%Z -> k_run p = true -> (forall x, g x = x) -> 0 < h ->
  gca_pass oo (lazy_pass g c) p h = (p, h, Nothing).
Proof.
  intros O ID R G H0. unfold gca_pass. rewrite O. cbn [lazy_pass w_orb w_col w_rf lazy]. rewrite G. unfold SimModel.check. rewrite R. cbn [andb].
  set (h1 := if o_rev oo then - h else h).
  replace (if o_rev oo then - h1 else h1) with h by (unfold h1; destruct (o_rev oo); ring).
  destruct (SimProofs.rlt_spec h 0) as [N|_]; [lra|]. cbn [fst snd].
  destruct (o_col oo), (o_icrh oo); rewrite ?G, ?R; cbn [andb];
    repeat (match goal with |- context [rlt h 0] => destruct (SimProofs.rlt_spec h 0) as [N|_]; [lra|] end; rewrite ?G, ?R; cbn [andb]); rewrite ID; reflexivity.
Qed.
(** an idle marker with id 0 therefore runs for ever, whatever the CPU limit *)
Theorem gca_id_zero_endless : forall c oo eo (p : marker) h m, o_orb oo = true -> k_id p = 0%Z -> k_run p = true -> k_err p = 0%Z -> 0 < h ->
  only_limits eo p -> going (gca_sim c oo eo) m (p, h) (p, h).
Proof.
  intros c oo eo p h m O ID R ER H0 L. induction m as [|m IH]; [constructor|]. econstructor; [exact IH|].
  exists (plain (lazy_pass (fun x => x) c) p). split; [apply lazy_pass_calm|]. split; [apply Rle_refl|]. unfold gca_turn. cbn [plain v_pass fst snd v_kf v_s v_x v_ki v_qi v_wall v_temp v_ekpar].
  rewrite gca_lazy_idle by auto. split; [apply plain_sees|]. cbv zeta. rewrite plain_check by auto. rewrite plain_ended. split; [reflexivity|]. cbn. auto.
Qed.

(** the fixed-step loop does not count passes that the RF module rejects *)
Theorem gcf_rejected_endless : forall oo eo c (p : marker) h hdef m, o_icrh oo = true -> k_run p = true -> k_err p = 0%Z -> 0 < h -> only_limits eo p ->
  going (fun d d' r => exists v, calm_pass (v_pass v) /\ w_cpu (v_pass v) = c /\ gcf_turn oo eo v d d' r) m (p, (h, hdef, 1)) (p, (h, hdef, 1)).
Proof.
  intros oo eo c p h hdef m IC R ER H0 L. induction m as [|m IH]; [constructor|]. econstructor; [exact IH|].
  exists (plain (Pass (lazy (fun x => x)) (lazy (fun x => x)) (lazy (fun x => - x)) c 1) p). split; [repeat split; auto|]. split; [reflexivity|].
  unfold gcf_turn. cbn [plain v_pass fst snd v_kf v_s v_x v_ki v_qi v_wall v_temp v_ekpar].
  assert (E : gcf_pass oo (Pass (lazy (fun x => x)) (lazy (fun x => x)) (lazy (fun x => - x)) c 1) p (h, hdef, 1) = (p, (h, hdef, 1), Rejected)).
  { unfold gcf_pass. rewrite IC. cbn [w_orb w_col w_rf lazy fst snd]. set (h1 := if o_rev oo then - h else h).
    replace (if o_rev oo then - h1 else h1) with h by (unfold h1; destruct (o_rev oo); ring).
    replace (if o_orb oo then p else p) with p by (destruct (o_orb oo); reflexivity). replace (if o_col oo then p else p) with p by (destruct (o_col oo); reflexivity).
    rewrite R. destruct (SimProofs.rlt_spec (- h) 0) as [_|N]; [|lra]. cbn [andb]. destruct (SimProofs.rlt_spec (- h) 0) as [_|N]; [|lra]. rewrite R, Ropp_involutive. reflexivity. }
  rewrite E. split; [apply plain_sees|]. cbv zeta. rewrite plain_check by auto. rewrite plain_ended. split; [reflexivity|]. cbn. auto.
Qed.

(** a time limit alone does not end the adaptive loop: steps that keep being halved are all
    accepted and never add up to the limit *)
Definition halved (x : X) (m : nat) : marker * R := (Mk (2 - 2 * (/ 2) ^ m) (2 - 2 * (/ 2) ^ m) 0 0 0 1 0 true x, (/ 2) ^ m).
Theorem gca_time_limit_endless : forall (x : X) eo, active eo = 257%Z -> sim_mode eo <> 3%Z -> reverse_time eo = false ->
  2 <= max_mileage eo -> 2 <= lim_simtime eo -> 0 <= max_cputime eo ->
  forall m, going (gca_sim 0 (Opt false false true false 1 1) eo) m (halved x 0) (halved x m) /\
    k_mileage (fst (halved x m)) < k_mileage (fst (halved x (S m))) < 2.
Proof.
  intros x eo A M RV L1 L2 L3 m.
  assert (PW : forall m, 0 < (/ 2) ^ m <= 1).
  { clear. induction m as [|m IH]; cbn [pow]; [lra|]. lra. }
  split; [|destruct (PW m), (PW (S m)); cbn [halved fst k_mileage pow] in *; lra].
  induction m as [|m IH]; [constructor|]. econstructor; [exact IH|]. clear IH.
  destruct (PW m) as [P1 P2].
  exists (plain (lazy_pass (fun h => / 2 * h) 0) (fst (halved x (S m)))). split; [apply lazy_pass_calm|]. split; [apply Rle_refl|].
  unfold gca_turn. cbn [plain v_pass v_kf v_s v_x v_ki v_qi v_wall v_temp v_ekpar].
  assert (E : gca_pass (Opt false false true false 1 1) (lazy_pass (fun h => / 2 * h) 0) (fst (halved x m)) (snd (halved x m)) = (fst (halved x (S m)), snd (halved x (S m)), Accepted ((/ 2) ^ m))).
  { unfold gca_pass. cbn [o_rev o_orb o_col o_icrh o_dphi o_drho lazy_pass w_orb w_col w_rf w_acc w_cpu lazy halved fst snd]. unfold SimModel.check. cbn [k_run andb].
    destruct (SimProofs.rlt_spec (/ 2 * (/ 2) ^ m) 0) as [N|_]; [lra|]. cbn [k_id k_err k_phi k_rho Z.ltb Z.eqb Z.compare andb].
    destruct (SimProofs.rlt_spec 0 1) as [_|N]; [|lra]. rewrite Rminus_eq_0, Rabs_R0. unfold Rdiv. rewrite Rmult_0_l.
    destruct (SimProofs.rlt_spec 1 0) as [N|_]; [lra|]. cbn [andb]. destruct (SimProofs.rlt_spec 1 0) as [N|_]; [lra|]. cbn [k_run].
    unfold smaller. destruct (SimProofs.rlt_spec 1 1) as [N|_]; [lra|]. destruct (SimProofs.rlt_spec (/ 2 * (/ 2) ^ m) 1) as [_|N]; [|lra].
    destruct (SimProofs.rlt_spec 1 (/ 2 * (/ 2) ^ m)) as [N|_]; [lra|]. destruct (Req_EM_T (/ 2 * (/ 2) ^ m) 1) as [N|_]; [lra|].
    cbn [dir pow]. unfold add_cpu, advance. cbn [k_time k_mileage k_cputime k_phi k_rho k_id k_err k_run k_rest].
    f_equal; [f_equal|f_equal; ring]. f_equal; field. }
  rewrite E. split; [apply plain_sees|]. cbv zeta.
  assert (OL : only_limits eo (fst (halved x (S m)))).
  { destruct (PW (S m)). unfold only_limits. cbn [halved fst k_mileage k_time k_cputime]. repeat split; auto; lra. }
  rewrite plain_check by auto. rewrite plain_ended. split; reflexivity.
Qed.
End passes.
