From Coq Require Import ZArith List Arith Lia.
From Verif Require Import StateModel MpiModel.
Import ListNotations.

(** * Partition *)

Definition start_of n_tot size i := fst (my_particles n_tot i size).
Definition count_of n_tot size i := snd (my_particles n_tot i size).

Lemma div_bound n_tot size : 1 <= size -> size * (n_tot / size) <= n_tot.
Proof. intros. apply Nat.mul_div_le. lia. Qed.

Lemma start_next n_tot size i :
  1 <= size -> S i < size ->
  start_of n_tot size i + count_of n_tot size i = start_of n_tot size (S i).
Proof.
  intros H1 H2. unfold start_of, count_of, my_particles. cbn [fst snd].
  destruct (Nat.eqb_spec i (size - 1)); [lia|]. nia.
Qed.

Lemma start_last n_tot size :
  1 <= size ->
  start_of n_tot size (size - 1) + count_of n_tot size (size - 1) = n_tot.
Proof.
  intros H1. unfold start_of, count_of, my_particles. cbn [fst snd].
  rewrite Nat.eqb_refl. pose proof (div_bound n_tot size H1). nia.
Qed.

Lemma cover_prefix n_tot size k :
  1 <= size -> k <= size - 1 ->
  flat_map (fun i => seq (start_of n_tot size i) (count_of n_tot size i)) (seq 0 k)
  = seq 0 (start_of n_tot size k).
Proof.
  intros H1. induction k as [|k IH]; intros Hk; [reflexivity|].
  rewrite seq_S, flat_map_app, IH by lia. cbn [flat_map plus]. rewrite app_nil_r.
  rewrite <- start_next by lia. now rewrite seq_app.
Qed.

Lemma partition_cover n_tot size :
  1 <= size ->
  flat_map (fun i => let '(s, n) := my_particles n_tot i size in seq s n) (seq 0 size)
  = seq 0 n_tot.
Proof.
  intros H1.
  assert (E : flat_map (fun i => let '(s, n) := my_particles n_tot i size in seq s n) (seq 0 size)
    = flat_map (fun i => seq (start_of n_tot size i) (count_of n_tot size i)) (seq 0 size))
    by reflexivity.
  rewrite E. clear E.
  assert (E2 : seq 0 size = seq 0 (S (size - 1))) by (f_equal; lia). rewrite E2.
  rewrite seq_S, flat_map_app, cover_prefix by lia. cbn [flat_map plus].
  rewrite app_nil_r. transitivity (seq 0 (start_of n_tot size (size - 1) + count_of n_tot size (size - 1))).
  - now rewrite seq_app.
  - now rewrite start_last by lia.
Qed.

Lemma start_le_mono n_tot size i j :
  1 <= size -> i < j -> j < size ->
  start_of n_tot size i + count_of n_tot size i <= start_of n_tot size j.
Proof.
  intros H1 Hij Hj. rewrite start_next by lia.
  unfold start_of, my_particles. cbn [fst]. apply Nat.mul_le_mono_r. lia.
Qed.

Lemma partition_unique n_tot size g :
  1 <= size -> g < n_tot ->
  exists! i, i < size /\ (let '(s, n) := my_particles n_tot i size in s <= g < s + n).
Proof.
  intros H1 Hg.
  assert (I : In g (seq 0 n_tot)) by (apply in_seq; lia).
  rewrite <- (partition_cover n_tot size H1) in I. apply in_flat_map in I.
  destruct I as (i & Hi & Hin). apply in_seq in Hi.
  destruct (my_particles n_tot i size) as [s n] eqn:E. apply in_seq in Hin.
  exists i. split.
  - rewrite E. lia.
  - intros j [Hj Hb]. destruct (my_particles n_tot j size) as [s' n'] eqn:E'.
    destruct (Nat.lt_trichotomy i j) as [L|[->|L]]; auto; exfalso.
    + pose proof (start_le_mono n_tot size i j H1 L Hj) as M.
      unfold start_of, count_of in M. rewrite E, E' in M. simpl in M. lia.
    + pose proof (start_le_mono n_tot size j i H1 L ltac:(lia)) as M.
      unfold start_of, count_of in M. rewrite E, E' in M. simpl in M. lia.
Qed.

Lemma partition_balance n_tot size i :
  1 <= size -> i < size ->
  n_tot / size <= count_of n_tot size i < n_tot / size + size.
Proof.
  intros H1 Hi. unfold count_of, my_particles. cbn [snd].
  destruct (Nat.eqb_spec i (size - 1)).
  - subst. pose proof (Nat.div_mod_eq n_tot size).
    pose proof (Nat.mod_upper_bound n_tot size ltac:(lia)). nia.
  - lia.
Qed.

(** * Buffers *)

Lemma set_nth_length {A} (l : list A) i x : length (set_nth l i x) = length l.
Proof. revert i; induction l as [|a l IH]; intros [|i]; simpl; auto. Qed.

Lemma nth_set_same {A} (l : list A) i x :
  i < length l -> nth_error (set_nth l i x) i = Some x.
Proof.
  revert i; induction l as [|a l IH]; intros [|i] H; simpl in *; try lia; auto.
  apply IH; lia.
Qed.

Lemma nth_set_other {A} (l : list A) i j x :
  i <> j -> nth_error (set_nth l i x) j = nth_error l j.
Proof.
  revert i j; induction l as [|a l IH]; intros [|i] [|j] H; simpl; auto; try congruence.
Qed.

Lemma rd_wr_same {A} (b b' : buf A) i x : wr b i x = Some b' -> rd b' i = Some x.
Proof.
  unfold wr, rd. destruct (Nat.ltb_spec i (length b)); [|discriminate].
  intros [= <-]. now rewrite nth_set_same.
Qed.
Lemma rd_wr_other {A} (b b' : buf A) i j x :
  wr b i x = Some b' -> i <> j -> rd b' j = rd b j.
Proof.
  unfold wr, rd. destruct (Nat.ltb_spec i (length b)); [|discriminate].
  intros [= <-] N. now rewrite nth_set_other.
Qed.
Lemma wr_length {A} (b b' : buf A) i x : wr b i x = Some b' -> length b' = length b.
Proof.
  unfold wr. destruct (Nat.ltb_spec i (length b)); [|discriminate].
  intros [= <-]. apply set_nth_length.
Qed.
Lemma wr_ok {A} (b : buf A) i x : i < length b -> exists b', wr b i x = Some b'.
Proof. unfold wr. intros H. apply Nat.ltb_lt in H. rewrite H. eauto. Qed.

Lemma wr_all_ok {A} (w : list (nat * A)) : forall b : buf A,
  (forall i x, In (i, x) w -> i < length b) ->
  exists b', wr_all b w = Some b' /\ length b' = length b.
Proof.
  induction w as [|[i x] w IH]; intros b H; simpl; [eauto|].
  destruct (wr_ok b i x) as [b1 E]; [apply (H i x); now left|].
  rewrite E. pose proof (wr_length _ _ _ _ E) as L.
  destruct (IH b1) as (b' & E' & L').
  - intros j y I. rewrite L. apply (H j y). now right.
  - exists b'. split; auto. lia.
Qed.

Lemma wr_all_other {A} (w : list (nat * A)) : forall (b b' : buf A) i,
  wr_all b w = Some b' -> (forall x, ~ In (i, x) w) -> rd b' i = rd b i.
Proof.
  induction w as [|[j y] w IH]; intros b b' i; simpl; [congruence|].
  destruct (wr b j y) as [b1|] eqn:E; [|discriminate]. intros H N.
  rewrite (IH b1 b' i H).
  - eapply rd_wr_other; eauto. intros ->. apply (N y). now left.
  - intros x I. apply (N x). now right.
Qed.

Lemma wr_all_rd {A} (w : list (nat * A)) : forall (b b' : buf A) i x,
  wr_all b w = Some b' -> In (i, x) w ->
  (forall y, In (i, y) w -> y = x) -> rd b' i = Some x.
Proof.
  induction w as [|[j y] w IH]; intros b b' i x; simpl; [intros _ []|].
  destruct (wr b j y) as [b1|] eqn:E; [|discriminate]. intros H I F.
  assert (D : (exists z, In (i, z) w) \/ ~ exists z, In (i, z) w).
  { clear. induction w as [|[k z] w [(u & IH)|IH]].
    - right. now intros [? []].
    - left. exists u. now right.
    - destruct (Nat.eq_dec k i) as [->|N].
      + left. exists z. now left.
      + right. intros [u [Q|Q]]; [congruence|]. eauto. }
  destruct D as [(z & Iz)|Nz].
  - assert (z = x) as -> by (apply F; now right).
    eapply IH; eauto.
  - destruct I as [Q|I]; [|exfalso; eauto].
    injection Q as -> ->.
    rewrite (wr_all_other w b1 b' i H).
    + eapply rd_wr_same; eauto.
    + intros u Iu. apply Nz. eauto.
Qed.

(** * Field-major packing *)

Section Pack.
Context {X A : Type} (tab : list (pstate X -> A)) (n : nat) (ps : nat -> pstate X).

Definition tab_writes (j : nat) : list (nat * A) :=
  map (fun '(k, f) => (k * n + j, f (ps j))) (combine (seq 0 (length tab)) tab).

Lemma in_combine_seq {B} (l : list B) k f s :
  In (k, f) (combine (seq s (length l)) l) <-> s <= k /\ nth_error l (k - s) = Some f.
Proof.
  revert s. induction l as [|b l IH]; intros s; simpl.
  - split; [intros []|]. intros [_ H]. destruct (k - s); discriminate.
  - rewrite IH. split.
    + intros [E|[H1 H2]].
      * injection E as <- <-. rewrite Nat.sub_diag. split; [lia|reflexivity].
      * split; [lia|]. replace (k - s) with (S (k - S s)) by lia. exact H2.
    + intros [H1 H2]. destruct (Nat.eq_dec s k) as [->|N].
      * left. rewrite Nat.sub_diag in H2. simpl in H2. congruence.
      * right. split; [lia|]. replace (k - s) with (S (k - S s)) in H2 by lia. exact H2.
Qed.

Lemma in_writes i x :
  In (i, x) (flat_map tab_writes (seq 0 n)) <->
  exists j k f, j < n /\ nth_error tab k = Some f /\ i = k * n + j /\ x = f (ps j).
Proof.
  rewrite in_flat_map. split.
  - intros (j & Hj & I). apply in_seq in Hj. unfold tab_writes in I.
    apply in_map_iff in I. destruct I as ((k & f) & E & I).
    apply in_combine_seq in I. rewrite Nat.sub_0_r in I.
    injection E as <- <-. exists j, k, f. intuition.
  - intros (j & k & f & Hj & Hk & -> & ->). exists j. split; [apply in_seq; lia|].
    unfold tab_writes. apply in_map_iff. exists (k, f). split; auto.
    apply in_combine_seq. rewrite Nat.sub_0_r. split; [lia|auto].
Qed.

Lemma pack_ok :
  exists b, wr_all (malloc A (length tab * n)) (flat_map tab_writes (seq 0 n)) = Some b
    /\ length b = length tab * n.
Proof.
  destruct (wr_all_ok (flat_map tab_writes (seq 0 n)) (malloc A (length tab * n))) as (b & E & L).
  - intros i x I. apply in_writes in I. destruct I as (j & k & f & Hj & Hk & -> & ->).
    unfold malloc. rewrite repeat_length.
    assert (k < length tab) by (apply nth_error_Some; congruence). nia.
  - exists b. split; auto. rewrite L. apply repeat_length.
Qed.

Lemma pack_rd b k j f :
  wr_all (malloc A (length tab * n)) (flat_map tab_writes (seq 0 n)) = Some b ->
  j < n -> nth_error tab k = Some f -> rd b (k * n + j) = Some (f (ps j)).
Proof.
  intros E Hj Hk. eapply wr_all_rd; eauto.
  - apply in_writes. exists j, k, f. auto.
  - intros y I. apply in_writes in I. destruct I as (j' & k' & f' & Hj' & Hk' & E' & ->).
    assert (k = k') as <- by (destruct (Nat.lt_trichotomy k k') as [L|[L|L]]; auto; exfalso; nia).
    assert (j = j') as <- by lia. congruence.
Qed.
End Pack.

Section Gather.
Context {X : Type}.

Definition real_tab : list (pstate X -> X) :=
  [ s_r; s_phi; s_z; s_ppar; s_mu; s_zeta; s_rprt; s_phiprt; s_zprt; s_p_r; s_p_phi;
    s_p_z; s_mass; s_charge; s_weight; s_time; s_cputime; s_rho; s_theta; s_B_r;
    s_B_phi; s_B_z; s_B_r_dr; s_B_phi_dr; s_B_z_dr; s_B_r_dphi; s_B_phi_dphi;
    s_B_z_dphi; s_B_r_dz; s_B_phi_dz; s_B_z_dz; s_mileage ].
Definition int_tab : list (pstate X -> Z) := [s_anum; s_znum; s_id; s_endcond; s_walltile].
Definition err_tab : list (pstate X -> Z) := [s_err].

Lemma send_ok n (ps : nat -> pstate X) :
  exists r d e, send_states n ps = Some [MReal r; MInt d; MErr e]
    /\ length r = 32 * n /\ length d = 5 * n /\ length e = 1 * n
    /\ forall j, j < n -> unpack_one n j r d e = Some (ps j).
Proof.
  destruct (pack_ok real_tab n ps) as (r & Er & Lr).
  destruct (pack_ok int_tab n ps) as (d & Ed & Ld).
  destruct (pack_ok err_tab n ps) as (e & Ee & Le).
  exists r, d, e.
  assert (Er' := Er). assert (Ed' := Ed). assert (Ee' := Ee).
  change (flat_map (tab_writes real_tab n ps) (seq 0 n))
    with (flat_map (fun j => real_writes n (ps j) j) (seq 0 n)) in Er'.
  change (flat_map (tab_writes int_tab n ps) (seq 0 n))
    with (flat_map (fun j => int_writes n (ps j) j) (seq 0 n)) in Ed'.
  change (flat_map (tab_writes err_tab n ps) (seq 0 n))
    with (flat_map (fun j => err_writes n (ps j) j) (seq 0 n)) in Ee'.
  unfold send_states.
  change (length real_tab) with 32 in *. change (length int_tab) with 5 in *.
  change (length err_tab) with 1 in *.
  rewrite Er', Ed', Ee'. split; [reflexivity|]. repeat (split; [assumption|]).
  intros j Hj.
  assert (Rr := fun k f => pack_rd real_tab n ps r k j f Er Hj).
  assert (Rd := fun k f => pack_rd int_tab n ps d k j f Ed Hj).
  assert (Re := pack_rd err_tab n ps e 0 j s_err Ee Hj eq_refl).
  unfold unpack_one.
  repeat (erewrite Rr by reflexivity).
  repeat (erewrite Rd by reflexivity).
  cbn [Nat.mul Nat.add] in Re. rewrite Re.
  now destruct (ps j).
Qed.

Lemma rd_None_nth {A} (b : buf A) i : rd b i = None \/ exists x, rd b i = Some x.
Proof. destruct (rd b i); eauto. Qed.

Lemma unpack_loop_ok n r d e (ps : nat -> pstate X) start :
  (forall j, j < n -> unpack_one n j r d e = Some (ps j)) ->
  forall js all, (forall j, In j js -> j < n) -> NoDup js ->
  start + n <= length all ->
  exists all', unpack_loop all start n r d e js = Some all' /\ length all' = length all
    /\ (forall j, In j js -> rd all' (start + j) = Some (ps j))
    /\ (forall i, (forall j, In j js -> i <> start + j) -> rd all' i = rd all i).
Proof.
  intros U. induction js as [|j js IH]; intros all Hj ND HL; cbn [unpack_loop].
  - exists all. repeat split; auto. intros j [].
  - rewrite U by (apply Hj; now left).
    destruct (wr_ok all (start + j) (ps j)) as [a1 E].
    { specialize (Hj j (or_introl eq_refl)). lia. }
    unfold put. rewrite E.
    pose proof (wr_length _ _ _ _ E) as L1.
    inversion ND as [|? ? Nin ND']; subst.
    destruct (IH a1) as (all' & E' & L' & A & B).
    + intros i I. apply Hj. now right.
    + auto.
    + lia.
    + exists all'. split; [exact E'|]. split; [lia|]. split.
      * intros i [<-|I]; [|now apply A].
        rewrite B.
        -- eapply rd_wr_same; eauto.
        -- intros k Ik Q. assert (k = j) by lia. subst. contradiction.
      * intros i H. rewrite B.
        -- eapply rd_wr_other; eauto. intros Q. apply (H j); [now left|auto].
        -- intros k Ik. apply H. now right.
Qed.

Lemma copy_own_ok (ps : nat -> pstate X) :
  forall js all, (forall j, In j js -> j < length all) -> NoDup js ->
  exists all', copy_own all ps js = Some all' /\ length all' = length all
    /\ (forall j, In j js -> rd all' j = Some (ps j))
    /\ (forall i, ~ In i js -> rd all' i = rd all i).
Proof.
  induction js as [|j js IH]; intros all Hj ND; cbn [copy_own].
  - exists all. repeat split; auto. intros j [].
  - destruct (wr_ok all j (ps j)) as [a1 E]; [apply Hj; now left|].
    unfold put. rewrite E. pose proof (wr_length _ _ _ _ E) as L1.
    inversion ND as [|? ? Nin ND']; subst.
    destruct (IH a1) as (all' & E' & L' & A & B); auto.
    + intros i I. rewrite L1. apply Hj. now right.
    + exists all'. split; [exact E'|]. split; [lia|]. split.
      * intros i [<-|I]; [|now apply A]. rewrite B by auto. eapply rd_wr_same; eauto.
      * intros i H. rewrite B by (intros I; apply H; now right).
        eapply rd_wr_other; eauto. intros ->. apply H. now left.
Qed.

Lemma recv_ok n_tot size (local : nat -> nat -> pstate X) :
  1 <= size ->
  forall k i0 all, i0 + k = size -> 1 <= i0 ->
  length all = n_tot ->
  exists all',
    recv_ranks all n_tot size
      (fun i => send_states (snd (my_particles n_tot i size)) (local i)) (seq i0 k) = Some all'
    /\ length all' = n_tot
    /\ (forall i j, i0 <= i < size -> j < count_of n_tot size i ->
          rd all' (start_of n_tot size i + j) = Some (local i j))
    /\ (forall g, (i0 < size -> g < start_of n_tot size i0) -> rd all' g = rd all g).
Proof.
  intros H1. induction k as [|k IH]; intros i0 all Hk Hi L; cbn [seq recv_ranks].
  - exists all. repeat split; auto. intros i j Hij. lia.
  - destruct (my_particles n_tot i0 size) as [start n] eqn:E. cbn [snd].
    destruct (send_ok n (local i0)) as (r & d & e & S1 & Lr & Ld & Le & U).
    rewrite S1. rewrite Lr, Ld, Le, !Nat.eqb_refl. cbn [andb].
    assert (Es : start_of n_tot size i0 = start) by (unfold start_of; now rewrite E).
    assert (Ec : count_of n_tot size i0 = n) by (unfold count_of; now rewrite E).
    assert (Hend : start + n <= n_tot).
    { destruct (Nat.eq_dec i0 (size - 1)) as [Q|Q].
      - pose proof (start_last n_tot size H1). rewrite <- Q in *. lia.
      - pose proof (start_le_mono n_tot size i0 (size - 1) H1 ltac:(lia) ltac:(lia)).
        pose proof (start_last n_tot size H1). lia. }
    destruct (unpack_loop_ok n r d e (local i0) start U (seq 0 n) all) as (a1 & U1 & L1 & A1 & B1).
    { intros j I. apply in_seq in I. lia. }
    { apply seq_NoDup. }
    { lia. }
    rewrite U1.
    destruct (IH (S i0) a1) as (all' & R & L' & A & B); try lia.
    exists all'. split; [exact R|]. split; [exact L'|]. split.
    + intros i j Hi' Hj. destruct (Nat.eq_dec i i0) as [->|N].
      * rewrite Es. rewrite B.
        -- apply A1. apply in_seq. lia.
        -- intros Q. rewrite <- start_next by lia. lia.
      * apply A; [lia|auto].
    + intros g Hg. specialize (Hg ltac:(lia)). rewrite B.
      * apply B1. intros j I. lia.
      * intros Q. rewrite <- start_next by lia. lia.
Qed.

(** [global] is the marker array of the whole simulation; each rank holds the
    part assigned to it. *)
Lemma gather_global n_tot size (global : nat -> pstate X) :
  1 <= size ->
  exists all,
    gather n_tot size (fun i j => global (fst (my_particles n_tot i size) + j)) = Some all
    /\ length all = n_tot /\ forall g, g < n_tot -> rd all g = Some (global g).
Proof.
  intros H1. set (local := fun i j => global (fst (my_particles n_tot i size) + j)).
  unfold gather.
  destruct (my_particles n_tot 0 size) as [s0 n0] eqn:E0.
  assert (Es : s0 = 0) by (unfold my_particles in E0; injection E0; lia). subst s0.
  assert (Ec : count_of n_tot size 0 = n0) by (unfold count_of; now rewrite E0).
  assert (Ez : start_of n_tot size 0 = 0) by (unfold start_of; now rewrite E0).
  assert (Hn0 : n0 <= n_tot).
  { destruct (Nat.eq_dec size 1) as [->|N].
    - pose proof (start_last n_tot 1 H1). cbn [Nat.sub] in *. lia.
    - pose proof (start_le_mono n_tot size 0 (size - 1) H1 ltac:(lia) ltac:(lia)).
      pose proof (start_last n_tot size H1). lia. }
  destruct (copy_own_ok (local 0) (seq 0 n0) (malloc (pstate X) n_tot)) as (a1 & C & L1 & A1 & B1).
  { intros j I. apply in_seq in I. unfold malloc. rewrite repeat_length. lia. }
  { apply seq_NoDup. }
  unfold malloc in L1. rewrite repeat_length in L1.
  rewrite C.
  destruct (recv_ok n_tot size local H1 (size - 1) 1 a1 ltac:(lia) ltac:(lia) L1)
    as (all & R & L & A & B).
  exists all. split; [exact R|]. split; [exact L|].
  intros g Hg. destruct (partition_unique n_tot size g H1 Hg) as (i & [Hi Hb] & _).
  destruct (my_particles n_tot i size) as [s n] eqn:E.
  assert (Es : start_of n_tot size i = s) by (unfold start_of; now rewrite E).
  assert (Ecn : count_of n_tot size i = n) by (unfold count_of; now rewrite E).
  destruct (Nat.eq_dec i 0) as [->|N].
  - rewrite E0 in E. injection E as <- <-. rewrite B.
    + rewrite A1 by (apply in_seq; lia). unfold local. rewrite E0. reflexivity.
    + intros Q. rewrite <- start_next by lia. lia.
  - replace g with (start_of n_tot size i + (g - s)) by lia.
    rewrite A by lia. unfold local. rewrite E. cbn [fst]. do 2 f_equal. lia.
Qed.

Lemma condor_ok n_tot rank size (ps : nat -> pstate X) :
  exists all, gather_condor n_tot rank size ps = Some all
    /\ length all = count_of n_tot size rank
    /\ forall j, j < count_of n_tot size rank -> rd all j = Some (ps j).
Proof.
  unfold gather_condor, count_of. destruct (my_particles n_tot rank size) as [s n]. cbn [snd].
  destruct (copy_own_ok ps (seq 0 n) (malloc (pstate X) n)) as (a & C & L & A & B).
  { intros j I. apply in_seq in I. unfold malloc. rewrite repeat_length. lia. }
  { apply seq_NoDup. }
  exists a. split; [exact C|]. unfold malloc in L. rewrite repeat_length in L. split; auto.
  intros j Hj. apply A. apply in_seq. lia.
Qed.

(** ascot5_main.c:214 reads n_tot entries of the gathered array. *)
Lemma condor_short n_tot rank size (ps : nat -> pstate X) all :
  2 <= size -> size <= n_tot -> rank < size - 1 ->
  gather_condor n_tot rank size ps = Some all -> rd all (n_tot - 1) = None.
Proof.
  intros H1 H2 H3 G. destruct (condor_ok n_tot rank size ps) as (all' & G' & L & _).
  rewrite G in G'. injection G' as <-.
  unfold rd. assert (Hl : length all <= n_tot - 1).
  { rewrite L. unfold count_of, my_particles. cbn [snd].
    destruct (Nat.eqb_spec rank (size - 1)); [lia|].
    pose proof (div_bound n_tot size ltac:(lia)). nia. }
  apply nth_error_None in Hl. now rewrite Hl.
Qed.

End Gather.

(** * Orbit arrays *)
Section Orb.
Context {X : Type}.

Lemma blit_ok (vals : list (option X)) : forall all off,
  off + length vals <= length all ->
  exists all', blit all off vals = Some all' /\ length all' = length all
    /\ (forall k, k < length vals -> nth_error all' (off + k) = nth_error vals k)
    /\ (forall i, i < off -> nth_error all' i = nth_error all i).
Proof.
  induction vals as [|v vals IH]; intros all off H; cbn [blit length] in *.
  - exists all. repeat split; auto. intros; lia.
  - destruct (Nat.ltb_spec off (length all)); [|lia].
    destruct (IH (set_nth all off v) (S off)) as (all' & E & L & A & B).
    { rewrite set_nth_length. lia. }
    exists all'. split; [exact E|]. rewrite set_nth_length in L. split; [lia|]. split.
    + intros [|k] Hk; cbn [nth_error].
      * rewrite Nat.add_0_r, B by lia. now apply nth_set_same.
      * replace (off + S k) with (S off + k) by lia. apply A. lia.
    + intros i Hi. rewrite B by lia. apply nth_set_other. lia.
Qed.

Lemma orb_recv_ok n_tot size npnt (local : nat -> buf X) :
  1 <= size ->
  (forall i, i < size -> length (local i) = count_of n_tot size i * npnt) ->
  forall k i0 all, i0 + k = size -> 1 <= i0 ->
  length all = n_tot * npnt ->
  exists all', orb_recv all n_tot size npnt local (seq i0 k) = Some all'
    /\ length all' = n_tot * npnt
    /\ (forall i x, i0 <= i < size -> x < count_of n_tot size i * npnt ->
          nth_error all' (start_of n_tot size i * npnt + x) = nth_error (local i) x)
    /\ (forall g, (i0 < size -> g < start_of n_tot size i0 * npnt) ->
          nth_error all' g = nth_error all g).
Proof.
  intros H1 HL. induction k as [|k IH]; intros i0 all Hk Hi L; cbn [seq orb_recv].
  - exists all. repeat split; auto. intros i j Hij. lia.
  - destruct (my_particles n_tot i0 size) as [start n] eqn:E.
    assert (Es : start_of n_tot size i0 = start) by (unfold start_of; now rewrite E).
    assert (Ec : count_of n_tot size i0 = n) by (unfold count_of; now rewrite E).
    assert (Hend : start + n <= n_tot).
    { destruct (Nat.eq_dec i0 (size - 1)) as [Q|Q].
      - pose proof (start_last n_tot size H1). rewrite <- Q in *. lia.
      - pose proof (start_le_mono n_tot size i0 (size - 1) H1 ltac:(lia) ltac:(lia)).
        pose proof (start_last n_tot size H1). lia. }
    assert (Hf : firstn (n * npnt) (local i0) = local i0).
    { apply firstn_all2. rewrite HL by lia. rewrite Ec. lia. }
    rewrite Hf.
    destruct (blit_ok (local i0) all (start * npnt)) as (a1 & B1 & L1 & A1 & O1).
    { rewrite HL, Ec, L by lia. nia. }
    rewrite B1. rewrite HL, Ec in A1 by lia.
    destruct (IH (S i0) a1) as (all' & R & L' & A & B); try lia.
    exists all'. split; [exact R|]. split; [exact L'|]. split.
    + intros i x Hi' Hx. destruct (Nat.eq_dec i i0) as [->|N].
      * rewrite Es. rewrite B.
        -- apply A1. lia.
        -- intros Q. rewrite <- start_next by lia. nia.
      * apply A; [lia|auto].
    + intros g Hg. specialize (Hg ltac:(lia)). rewrite B.
      * apply O1. lia.
      * intros Q. rewrite <- start_next by lia. nia.
Qed.

(** Point [k] of global marker [g] arrives at position g*npnt+k. *)
Lemma orb_gather_ok n_tot size npnt (local : nat -> buf X) :
  1 <= size ->
  (forall i, i < size -> length (local i) = count_of n_tot size i * npnt) ->
  exists all, orb_gather n_tot size npnt local = Some all /\ length all = n_tot * npnt
    /\ forall i j k, i < size -> j < count_of n_tot size i -> k < npnt ->
       nth_error all ((start_of n_tot size i + j) * npnt + k)
       = nth_error (local i) (j * npnt + k).
Proof.
  intros H1 HL. unfold orb_gather.
  destruct (my_particles n_tot 0 size) as [s0 n0] eqn:E0.
  assert (Es : s0 = 0) by (unfold my_particles in E0; injection E0; lia). subst s0.
  assert (Ec : count_of n_tot size 0 = n0) by (unfold count_of; now rewrite E0).
  assert (Ez : start_of n_tot size 0 = 0) by (unfold start_of; now rewrite E0).
  assert (Hn0 : n0 <= n_tot).
  { destruct (Nat.eq_dec size 1) as [->|N].
    - pose proof (start_last n_tot 1 H1). cbn [Nat.sub] in *. lia.
    - pose proof (start_le_mono n_tot size 0 (size - 1) H1 ltac:(lia) ltac:(lia)).
      pose proof (start_last n_tot size H1). lia. }
  set (all0 := local 0 ++ malloc X (n_tot * npnt - n0 * npnt)).
  assert (L0 : length all0 = n_tot * npnt).
  { unfold all0, malloc. rewrite app_length, repeat_length, HL, Ec by lia. nia. }
  destruct (orb_recv_ok n_tot size npnt local H1 HL (size - 1) 1 all0 ltac:(lia) ltac:(lia) L0)
    as (all & R & L & A & B).
  exists all. split; [exact R|]. split; [exact L|].
  intros i j k Hi Hj Hk.
  replace ((start_of n_tot size i + j) * npnt + k)
    with (start_of n_tot size i * npnt + (j * npnt + k)) by nia.
  assert (Hx : j * npnt + k < count_of n_tot size i * npnt) by nia.
  destruct (Nat.eq_dec i 0) as [->|N].
  - rewrite Ez. cbn [Nat.mul Nat.add]. rewrite B.
    + unfold all0. apply nth_error_app1. rewrite HL by lia. exact Hx.
    + intros Q. rewrite <- start_next by lia. nia.
  - apply A; [lia|exact Hx].
Qed.
End Orb.

(** * Which orbit arrays are exchanged *)
Lemma orb_send_recv_match m pc : orb_sent m pc = orb_received m pc.
Proof. reflexivity. Qed.

Lemma orb_sent_allocated m pc :
  (m = mode_fo \/ m = mode_gc) <->
  (forall f, In f (orb_sent m pc) <-> In f (orb_allocated m pc)).
Proof.
  split.
  - intros [-> | ->] f; destruct pc; destruct f; cbn; intuition discriminate.
  - intros H. destruct m; auto; exfalso.
    + assert (I : In o_charge (orb_allocated mode_hybrid pc)) by (destruct pc; cbn; tauto).
      apply H in I. destruct pc; cbn in I; intuition discriminate.
    + assert (I : In o_charge (orb_sent mode_ml pc)) by (destruct pc; cbn; tauto).
      apply H in I. destruct pc; cbn in I; intuition discriminate.
Qed.
