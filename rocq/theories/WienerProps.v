(** C08: the Wiener-process history of the adaptive integrator.
    Specification ([WienerProofs]): a history is a list of (time, value) with
    strictly increasing times ([sorted]); [rep w m] says the slot arrays hold
    exactly the list [m]; [inserted m t xi m'] adds one value at [t], a plain
    Gaussian increment after the last time and a Brownian bridge between two
    neighbours; [keep t m] drops the values before [t]. *)
From Coq Require Import Reals List Arith Lia Lra.
From Verif Require Import WienerModel WienerProofs.
Import ListNotations.
Local Open Scope R_scope.

Theorem wiener_init_holds_origin : forall V (vzero : V) N w0 t0,
  (0 < N)%nat -> rep N (w_init vzero N w0 t0) [(t0, vzero)].
Proof. exact @init_rep. Qed.
Print Assumptions wiener_init_holds_origin.

Theorem wiener_times_sorted : forall V N (w : warr V) m, rep N w m -> sorted m.
Proof. exact @rep_sorted. Qed.
Print Assumptions wiener_times_sorted.

(** A stored time is returned unchanged; a full array is reported and left
    alone; otherwise one value is inserted in order. Never undefined. *)
Theorem wiener_generate_correct : forall V (vadd : V -> V -> V) vscal N w m t rnd,
  rep N w m -> first_time m <= t ->
  match w_generate vadd vscal N w t rnd with
  | GUB => False
  | GErr w' => w' = w /\ length m = N /\ ~ In t (map fst m)
  | GOk w' i =>
      (w' = w /\ In (wtime w i, wval w i) m /\ wtime w i = t) \/
      (~ In t (map fst m) /\ (length m < N)%nat /\
       exists m', rep N w' m' /\ inserted vadd vscal m t rnd m' /\
         wtime w' i = t /\ In (t, wval w' i) m')
  end.
Proof. intros V vadd vscal N w. exact (generate_rep (wval w 0%nat) vadd vscal N w). Qed.
Print Assumptions wiener_generate_correct.

(** A rejected step that is retried sees the same path. *)
Theorem wiener_repeated_time_same_value : forall V (vadd : V -> V -> V) vscal N w m t r1 r2 w' i,
  rep N w m -> first_time m <= t -> w_generate vadd vscal N w t r1 = GOk w' i ->
  exists j, w_generate vadd vscal N w' t r2 = GOk w' j /\ wtime w' j = t /\ wval w' j = wval w' i.
Proof. intros V vadd vscal N w. exact (generate_again (wval w 0%nat) vadd vscal N w). Qed.
Print Assumptions wiener_repeated_time_same_value.

Theorem wiener_clean_drops_past : forall V N (w : warr V) m t,
  rep N w m -> (exists x, In x m /\ t <= fst x) ->
  exists w', w_clean N w t = Some (w', false) /\ rep N w' (keep t m).
Proof.
  intros V N w.
  exact (clean_rep (wval w 0%nat) (fun a _ => a) (fun _ a => a) N w).
Qed.
Print Assumptions wiener_clean_drops_past.

(** Finding: cleaning past the last stored time raises the error, but if two or
    more values are stored the array is left without a head and the next
    generate reads index -1.  simulate_gc_adaptive.c:271 ignores the error. *)
Theorem wiener_clean_late : forall V (vadd : V -> V -> V) vscal N w m t,
  rep N w m -> (forall x, In x m -> fst x < t) ->
  exists w', w_clean N w t = Some (w', true) /\
    ((length m = 1%nat /\ w' = w) \/
     ((2 <= length m)%nat /\ nextslot w' 0%nat = None /\
      forall t' rnd, first_time m < t' -> w_generate vadd vscal N w' t' rnd = GUB)).
Proof. exact @clean_late. Qed.
Print Assumptions wiener_clean_late.

(** Finding (backward tracing): the marker time decreases, so it is never later
    than the first stored time, cleaning removes nothing and a second step of
    the same length gets the same value of the process. *)
Theorem wiener_backward_never_cleaned : forall V N (w : warr V) m t,
  rep N w m -> t <= first_time m -> w_clean N w t = Some (w, false).
Proof. exact @clean_early. Qed.
Print Assumptions wiener_backward_never_cleaned.

(** After any history of generate and clean calls fed with orthonormal noise
    (independent unit Gaussians), the stored values have the covariance of
    Brownian motion started at t0. *)
Theorem wiener_history_brownian :
  forall V (vzero : V) vadd vscal N (cov : V -> V -> R),
  (forall a b, cov a b = cov b a) ->
  (forall a b c, cov (vadd a b) c = cov a c + cov b c) ->
  (forall k a b, cov (vscal k a) b = k * cov a b) ->
  (forall a, cov vzero a = 0) ->
  forall xi : nat -> V,
  (forall i j, cov (xi i) (xi j) = if Nat.eqb i j then 1 else 0) ->
  forall w0 t0 k w, (0 < N)%nat -> history vzero vadd vscal N xi w0 t0 k w ->
  exists m, rep N w m /\
    (forall x y, In x m -> In y m -> cov (snd x) (snd y) = Rmin (fst x) (fst y) - t0) /\
    (forall x, In x m -> t0 <= fst x).
Proof.
  intros V vzero vadd vscal N cov H1 H2 H3 H4 xi H5 w0 t0 k w HN H.
  destruct (history_inv vzero vadd vscal N cov H1 H2 H3 H4 xi H5 w0 t0 k w HN H) as (m & A & B & _ & D).
  eauto.
Qed.
Print Assumptions wiener_history_brownian.

(** ** Examples *)
(** Formal linear combinations of independent noises with their covariance. *)
Definition lc := list (R * nat).
Definition lc_scal (k : R) (a : lc) : lc := map (fun p => (k * fst p, snd p)) a.
Definition lc_cov1 (p : R * nat) (b : lc) : R :=
  fold_right (fun q s => (if Nat.eqb (snd p) (snd q) then fst p * fst q else 0) + s) 0 b.
Definition lc_cov (a b : lc) : R := fold_right (fun p s => lc_cov1 p b + s) 0 a.

Lemma lc_cov_cons p a b : lc_cov (p :: a) b = lc_cov1 p b + lc_cov a b.
Proof. reflexivity. Qed.
Lemma lc_cov1_cons p q b :
  lc_cov1 p (q :: b) = (if Nat.eqb (snd p) (snd q) then fst p * fst q else 0) + lc_cov1 p b.
Proof. reflexivity. Qed.
Lemma lc_cov_add a b c : lc_cov (a ++ b) c = lc_cov a c + lc_cov b c.
Proof.
  induction a as [|p a IH]; [cbn [app]; change (lc_cov [] c) with 0; ring|]. cbn [app]. rewrite !lc_cov_cons, IH. ring.
Qed.
Lemma lc_cov1_scal k p b : lc_cov1 (k * fst p, snd p) b = k * lc_cov1 p b.
Proof.
  induction b as [|q b IH]; [cbn; ring|]. rewrite !lc_cov1_cons, IH. cbn [fst snd].
  destruct (Nat.eqb (snd p) (snd q)); ring.
Qed.
Lemma lc_cov_scal k a b : lc_cov (lc_scal k a) b = k * lc_cov a b.
Proof.
  induction a as [|p a IH]; [cbn; ring|]. unfold lc_scal in *. cbn [map].
  rewrite !lc_cov_cons, IH, lc_cov1_scal. ring.
Qed.
Lemma lc_cov_nil a : lc_cov a [] = 0.
Proof. induction a as [|p a IH]; [reflexivity|]. rewrite lc_cov_cons, IH. cbn. ring. Qed.
Lemma lc_cov_cons_r a q b : lc_cov a (q :: b) = lc_cov1 q a + lc_cov a b.
Proof.
  induction a as [|p a IH]; [cbn; ring|]. rewrite !lc_cov_cons, !lc_cov1_cons, IH.
  rewrite (Nat.eqb_sym (snd q)). destruct (Nat.eqb (snd p) (snd q)); ring.
Qed.
Lemma lc_cov_sym a b : lc_cov a b = lc_cov b a.
Proof.
  induction a as [|p a IH]; [now rewrite lc_cov_nil|]. rewrite lc_cov_cons_r, lc_cov_cons. now rewrite IH.
Qed.

Definition lc_xi (i : nat) : lc := [(1, i)].
Lemma lc_xi_orth i j : lc_cov (lc_xi i) (lc_xi j) = if Nat.eqb i j then 1 else 0.
Proof. cbn. destruct (Nat.eqb i j); ring. Qed.

Definition w0ex : warr lc := mkw (fun _ => None) (fun _ => 0) (fun _ => []).

(** A two-call history with 20 slots (one step to t = 2, then a bridge at t = 1). *)
Example history_ex : exists w,
  history (V:=lc) [] (@app _) lc_scal 20 lc_xi w0ex 0 2 w /\
  exists m, rep 20 w m /\ length m = 3%nat.
Proof.
  assert (R0 : rep 20 (w_init [] 20 w0ex 0) [(0, [])]) by (apply init_rep; lia).
  assert (F0 : forall m, rep 20 (w_init (V:=lc) [] 20 w0ex 0) m -> first_time m <= 2).
  { intros m (l & C & ->). destruct (c_hd _ _ _ C) as (r & ->). cbn. lra. }
  destruct (w_generate (V:=lc) (@app _) lc_scal 20 (w_init [] 20 w0ex 0) 2 (lc_xi 0)) as [|w1|w1 i1] eqn:G1;
    pose proof (wiener_generate_correct lc (@app _) lc_scal 20 _ _ 2 (lc_xi 0) R0 (F0 _ R0)) as Q;
    rewrite G1 in Q; [easy| |].
  { destruct Q as (_ & Q & _). discriminate. }
  destruct Q as [(_ & Q & E)|(_ & _ & m1 & R1 & I1 & _)].
  { rewrite E in Q. destruct Q as [Q|[]]. injection Q; intros; lra. }
  destruct I1 as (a & p & b & M1 & M2 & M3 & M4 & M5).
  assert (a = [] /\ p = (0, []) /\ b = []) as (-> & -> & ->).
  { destruct a as [|x [|]]; cbn in M1; injection M1; intros; subst; auto; discriminate. }
  cbn [app] in M5.
  assert (F1 : forall m, rep 20 w1 m -> first_time m <= 1).
  { intros m R. destruct R1 as (l1 & C1 & E1). destruct R as (l & C & ->).
    destruct (c_hd _ _ _ C1) as (r1 & ->). destruct (c_hd _ _ _ C) as (r & ->).
    rewrite M5 in E1. cbn in E1. injection E1. intros. cbn. lra. }
  destruct (w_generate (V:=lc) (@app _) lc_scal 20 w1 1 (lc_xi 1)) as [|w2|w2 i2] eqn:G2;
    pose proof (wiener_generate_correct lc (@app _) lc_scal 20 _ _ 1 (lc_xi 1) R1 (F1 _ R1)) as Q;
    rewrite G2 in Q; [easy| |].
  { destruct Q as (_ & Q & _). rewrite M5 in Q. discriminate. }
  destruct Q as [(_ & Q & E)|(_ & _ & m2 & R2 & I2 & _)].
  { rewrite E, M5 in Q. destruct Q as [Q|[Q|[]]]; injection Q; intros; lra. }
  exists w2. split.
  - apply h_gen with (w := w1) (t := 1) (i := i2); auto.
    apply h_gen with (w := w_init [] 20 w0ex 0) (t := 2) (i := i1); auto.
    constructor.
  - exists m2. split; auto. destruct I2 as (a & p & b & N1 & _ & _ & _ & N5).
    apply (f_equal (@length _)) in N5. apply (f_equal (@length _)) in N1.
    rewrite M5 in N1. rewrite app_length in N1, N5. cbn in N1, N5. lia.
Qed.

(** The hypotheses of the covariance theorem hold for [lc]. *)
Example brownian_ex : forall k w,
  history (V:=lc) [] (@app _) lc_scal 20 lc_xi w0ex 0 k w ->
  exists m, rep 20 w m /\
    (forall x y, In x m -> In y m -> lc_cov (snd x) (snd y) = Rmin (fst x) (fst y) - 0) /\
    (forall x, In x m -> 0 <= fst x).
Proof.
  intros k w. apply (wiener_history_brownian lc [] (@app _) lc_scal 20 lc_cov lc_cov_sym lc_cov_add
    lc_cov_scal (fun _ => eq_refl) lc_xi lc_xi_orth w0ex 0 k w). lia.
Qed.
