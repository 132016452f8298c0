(** The rejection loop of the normal sampler: specification and proofs. *)
From Coq Require Import ZArith List Reals Bool Lia Lra Znumtheory.
From Verif Require Import RandomModel RandomProofs RejModel.
Import ListNotations.
Local Open Scope Z_scope.

(** ** drand48 has the full period *)
Lemma d_iter_form : forall n r, exists k, d48_iter n r = d48_a ^ Z.of_nat n * r + d48_b * geo d48_a n + k * two48.
Proof.
  induction n; intros r.
  - exists 0. cbn [d48_iter geo]. change (Z.of_nat 0) with 0. rewrite Z.pow_0_r. lia.
  - destruct (IHn r) as [k E]. cbn [d48_iter geo]. unfold d48_next. rewrite E.
    set (X := d48_a * _ + d48_b). exists (d48_a * k - X / two48).
    rewrite Nat2Z.inj_succ, Z.pow_succ_r by lia.
    pose proof (Z.div_mod X two48 ltac:(unfold two48; lia)). unfold X in *. 
    set (p := d48_a ^ Z.of_nat n) in *. nia.
Qed.

Lemma d_iter_diff : forall n r, exists k, d48_iter n r - r = geo d48_a n * ((d48_a - 1) * r + d48_b) + k * two48.
Proof.
  intros n r. destruct (d_iter_form n r) as [k E]. exists k. rewrite E.
  pose proof (geo_pow d48_a n) as G.
  set (p := d48_a ^ Z.of_nat n) in *. set (g := geo d48_a n) in *.
  replace p with ((d48_a - 1) * g + 1) by lia. ring.
Qed.

Lemma d_mult_odd : forall r, Z.odd ((d48_a - 1) * r + d48_b) = true.
Proof. intros r. rewrite Z.odd_add, Z.odd_mul. reflexivity. Qed.

(** the low k bits return exactly every 2^k draws *)
Lemma d_low_bits_period : forall k n r, (k <= 48)%nat ->
  (d48_iter n r mod 2 ^ Z.of_nat k = r mod 2 ^ Z.of_nat k <-> (2 ^ Z.of_nat k | Z.of_nat n)).
Proof.
  intros k n r Hk. assert (P : 0 < 2 ^ Z.of_nat k) by lia.
  rewrite <- (geo_div 6303725979 k n). change (4 * 6303725979 + 1) with d48_a.
  destruct (d_iter_diff n r) as [q E].
  assert (D : (2 ^ Z.of_nat k | two48)).
  { unfold two48. exists (2 ^ (48 - Z.of_nat k)). rewrite <- Z.pow_add_r by lia. f_equal. lia. }
  assert (M : d48_iter n r mod 2 ^ Z.of_nat k = r mod 2 ^ Z.of_nat k <-> (2 ^ Z.of_nat k | d48_iter n r - r)).
  { split; intros H.
    - exists (d48_iter n r / 2 ^ Z.of_nat k - r / 2 ^ Z.of_nat k).
      pose proof (Z.div_mod (d48_iter n r) (2 ^ Z.of_nat k) ltac:(lia)).
      pose proof (Z.div_mod r (2 ^ Z.of_nat k) ltac:(lia)). lia.
    - destruct H as [t H]. replace (d48_iter n r) with (r + t * 2 ^ Z.of_nat k) by lia. apply Z.mod_add; lia. }
  rewrite M, E. split; intros H.
  - apply Gauss with (b := (d48_a - 1) * r + d48_b); [|apply odd_coprime_pow2, d_mult_odd].
    rewrite Z.mul_comm.
    replace (geo d48_a n * ((d48_a - 1) * r + d48_b)) with
      (geo d48_a n * ((d48_a - 1) * r + d48_b) + q * two48 - q * two48) by lia.
    apply Z.divide_sub_r; auto. apply Z.divide_mul_r; auto.
  - apply Z.divide_add_r; [apply Z.divide_mul_l | apply Z.divide_mul_r]; auto.
Qed.

Definition d_state (r : Z) : Prop := 0 <= r < two48.
Lemma d_next_state : forall r, d_state (d48_next r).
Proof. intros. unfold d_state, d48_next. apply Z.mod_pos_bound. unfold two48. lia. Qed.
Lemma d_iter_state : forall n r, d_state r -> d_state (d48_iter n r).
Proof. destruct n; intros; cbn [d48_iter]; auto using d_next_state. Qed.

Lemma d_period_exact : forall n r, d_state r -> (d48_iter n r = r <-> (two48 | Z.of_nat n)).
Proof.
  intros n r H. pose proof (d_low_bits_period 48 n r (le_n _)) as L.
  change (2 ^ Z.of_nat 48) with two48 in L. rewrite <- L.
  pose proof (d_iter_state n r H) as K. unfold d_state in *. rewrite !Z.mod_small by lia. reflexivity.
Qed.

Lemma d_iter_add : forall n m r, d48_iter (n + m) r = d48_iter n (d48_iter m r).
Proof. induction n; intros; cbn [d48_iter Nat.add]; auto. now rewrite IHn. Qed.

Lemma d_iter_inj : forall i j r, d_state r -> Z.of_nat i < two48 -> Z.of_nat j < two48 ->
  d48_iter i r = d48_iter j r -> i = j.
Proof.
  assert (W : forall i j r, d_state r -> (i <= j)%nat -> Z.of_nat j < two48 -> d48_iter i r = d48_iter j r -> i = j).
  { intros i j r H L J E. replace j with (j - i + i)%nat in E by lia. rewrite d_iter_add in E. symmetry in E.
    apply d_period_exact in E; [|apply d_iter_state; auto].
    destruct E as [q E]. assert (q = 0) by nia. lia. }
  intros i j r H I J E. destruct (le_lt_dec i j); [eapply W; eauto|]. symmetry. eapply W; eauto. lia.
Qed.

(** pigeonhole *)
Lemma d_iter_surj : forall r x, d_state r -> d_state x ->
  exists n, 0 <= n < two48 /\ d48_iter (Z.to_nat n) r = x.
Proof.
  intros r x Hr Hx.
  assert (G : forall N, Z.of_nat N = two48 -> exists n, 0 <= n < two48 /\ d48_iter (Z.to_nat n) r = x).
  { intros N EN.
    set (l := map (fun i => d48_iter i r) (seq 0 N)).
    set (l' := map Z.of_nat (seq 0 N)).
    assert (ND : NoDup l).
    { unfold l. assert (Q : forall i, In i (seq 0 N) -> Z.of_nat i < two48).
      { intros i I. apply in_seq in I. lia. }
      revert Q. generalize (seq_NoDup N 0). generalize (seq 0 N). intros s. induction s; intros D Q; [constructor|].
      inversion D; subst. cbn [map]. constructor.
      - intros I. apply in_map_iff in I. destruct I as (i & E & I).
        apply d_iter_inj in E; auto; [congruence | apply Q; right; auto | apply Q; left; auto].
      - apply IHs; auto. intros; apply Q; now right. }
    assert (IN : incl l l').
    { intros y Y. unfold l in Y. apply in_map_iff in Y. destruct Y as (i & <- & _).
      pose proof (d_iter_state i r Hr) as S. unfold d_state in S. unfold l'. apply in_map_iff.
      exists (Z.to_nat (d48_iter i r)). split; [apply Z2Nat.id; lia|]. apply in_seq. lia. }
    assert (IN' : incl l' l).
    { apply NoDup_length_incl; auto. unfold l, l'. rewrite !map_length. lia. }
    assert (X : In x l').
    { unfold l'. apply in_map_iff. exists (Z.to_nat x). unfold d_state in Hx. split; [apply Z2Nat.id; lia|]. apply in_seq. lia. }
    apply IN' in X. unfold l in X. apply in_map_iff in X. destruct X as (i & E & I). apply in_seq in I.
    exists (Z.of_nat i). split; [lia|]. rewrite Nat2Z.id. exact E. }
  apply (G (Z.to_nat two48)). apply Z2Nat.id. unfold two48. lia.
Qed.


Lemma it_r : forall (f : Z -> Z) n x, Nat.iter (S n) f x = Nat.iter n f (f x).
Proof. intros f. induction n; intros x; [reflexivity|]. change (f (Nat.iter (S n) f x) = f (Nat.iter n f (f x))). now rewrite IHn. Qed.
Lemma it_add : forall (f : Z -> Z) n m x, Nat.iter (n + m) f x = Nat.iter n f (Nat.iter m f x).
Proof. intros f. induction n; intros m x; [reflexivity|]. change (f (Nat.iter (n + m) f x) = f (Nat.iter n f (Nat.iter m f x))). now rewrite IHn. Qed.
(** ** The rejection loop ends, for any generator that visits all its states and changes parity in every draw *)
Lemma iter_lcg : forall n r, lcg_iter n r = Nat.iter n lcg_next r.
Proof. induction n; intros; cbn [lcg_iter Nat.iter nat_rect]; [reflexivity|]. now rewrite IHn. Qed.
Lemma iter_d48 : forall n r, d48_iter n r = Nat.iter n d48_next r.
Proof. induction n; intros; cbn [d48_iter Nat.iter nat_rect]; [reflexivity|]. now rewrite IHn. Qed.
Local Open Scope R_scope.
(** the pair of numbers drawn from state [r], mapped to the square, and its squared distance from the centre *)
Definition first_of (next : Z -> Z) (uni : Z -> R) (r : Z) : R := 2 * uni (next r) - 1.
Definition second_of (next : Z -> Z) (uni : Z -> R) (r : Z) : R := 2 * uni (next (next r)) - 1.
Definition dist_of (next : Z -> Z) (uni : Z -> R) (r : Z) : R := first_of next uni r * first_of next uni r + second_of next uni r * second_of next uni r.
(** what the sampler does with an array of [n] numbers from state [r]: it fills entries 0 to n - 1 once each, with pairs from inside the circle without its centre, of bounded size *)
Definition samples_normal (next : Z -> Z) (uni : Z -> R) (bound : R) (n : nat) (r : Z) : Prop :=
  exists fuel out m, (forall f, (fuel <= f)%nat -> normal_simd next uni f n r = Some (out, Nat.iter (2 * m) next r)) /\
    map fst out = seq 0 n /\ (forall i x, In (i, x) out -> x * x <= bound) /\
    exists v, out = normal_geo v n /\ forall i, let x1 := 2 * fst (v i) - 1 in let x2 := 2 * snd (v i) - 1 in 0 < x1 * x1 + x2 * x2 < 1.
Section Any.
Context (next : Z -> Z) (uni : Z -> R) (M : Z) (P : Z -> Z) (L : nat) (e o : Z).
Let ok (r : Z) : Prop := (0 <= r < 2 * M)%Z.
Context (Hn : forall r, ok (next r)) (Hs : forall r x, ok r -> ok x -> exists n, (0 <= n < 2 * M)%Z /\ Nat.iter (Z.to_nat n) next r = x) (Hp : forall r, Z.odd (next r) = negb (Z.odd r)).
Context (He : ok e /\ Z.odd e = false /\ dist_of next uni e < 1) (Ho : ok o /\ Z.odd o = true /\ dist_of next uni o < 1).
Context (HP : forall r, ok r -> 2 * uni r - 1 = IZR (P r) / 2 ^ L) (Hz : forall r, ok r -> P r = 0%Z -> P (next r) <> 0%Z).
Notation dist := (dist_of next uni).
Lemma iter_ok : forall n r, ok r -> ok (Nat.iter n next r).
Proof. induction n; intros r H; [exact H|]. cbn [Nat.iter nat_rect]. apply Hn. Qed.
Lemma iter_odd : forall n r, Z.odd (Nat.iter n next r) = xorb (Nat.odd n) (Z.odd r).
Proof. induction n; intros r; [change (Nat.iter 0 next r) with r; destruct (Z.odd r); reflexivity|]. cbn [Nat.iter nat_rect]. fold (Nat.iter n next r). rewrite Hp, IHn, Nat.odd_succ, <- Nat.negb_odd. destruct (Nat.odd n), (Z.odd r); reflexivity. Qed.
Lemma iter_two : forall k r, Nat.iter (2 * S k) next r = Nat.iter (2 * k) next (next (next r)).
Proof. intros k r. replace (2 * S k)%nat with (S (S (2 * k))) by lia. rewrite !it_r. reflexivity. Qed.
Lemma some_accepted : forall r, ok r -> exists m, (Z.of_nat m < M)%Z /\ dist (Nat.iter (2 * m) next r) < 1.
Proof.
  intros r H. assert (W : exists x, ok x /\ Z.odd x = Z.odd r /\ dist x < 1) by (destruct (Z.odd r) eqn:E; [exists o; rewrite <- E in *; destruct Ho as (A & B & C); rewrite B; auto|exists e; destruct He as (A & B & C); rewrite B; auto]).
  destruct W as (x & X & PX & W). destruct (Hs r x H X) as (n & N & E).
  assert (V : Nat.odd (Z.to_nat n) = false). { pose proof (iter_odd (Z.to_nat n) r) as Q. rewrite E, PX in Q. destruct (Nat.odd _), (Z.odd r); auto; discriminate. }
  assert (V2 : Nat.even (Z.to_nat n) = true) by (rewrite <- Nat.negb_odd, V; reflexivity). apply Nat.even_spec in V2. destruct V2 as (m & V2). exists m. split; [lia|]. rewrite <- V2, E. exact W.
Qed.
(** the first pair inside the circle *)
Lemma first_accepted : forall m r, dist (Nat.iter (2 * m) next r) < 1 -> exists k, (k <= m)%nat /\ dist (Nat.iter (2 * k) next r) < 1 /\ forall j, (j < k)%nat -> 1 <= dist (Nat.iter (2 * j) next r).
Proof.
  induction m; intros r H; [exists 0%nat; split; [lia|split; [exact H|lia]]|]. destruct (Rlt_dec (dist r) 1) as [A|A].
  - exists 0%nat. split; [lia|]. split; [exact A|lia].
  - rewrite iter_two in H. destruct (IHm _ H) as (k & K1 & K2 & K3). exists (S k). split; [lia|]. rewrite iter_two. split; [exact K2|]. intros [|j] J; [cbn; lra|]. rewrite iter_two. apply K3. lia.
Qed.
Lemma polar_run : forall k fuel r, (k < fuel)%nat -> dist (Nat.iter (2 * k) next r) < 1 -> (forall j, (j < k)%nat -> 1 <= dist (Nat.iter (2 * j) next r)) ->
  polar next uni fuel r = Some (first_of next uni (Nat.iter (2 * k) next r), second_of next uni (Nat.iter (2 * k) next r), Nat.iter (2 * S k) next r).
Proof.
  induction k; intros [|fuel] r F A R; try lia; cbn [polar]; cbv zeta.
  - change (Nat.iter (2 * 0) next r) with r in *. unfold dist_of, first_of, second_of in *. destruct (Rle_dec 1 _); [lra|]. reflexivity.
  - pose proof (R 0%nat ltac:(lia)) as R0. change (Nat.iter (2 * 0) next r) with r in R0. unfold dist_of, first_of, second_of in R0. destruct (Rle_dec 1 _); [|lra].
    rewrite (IHk fuel (next (next r))); [now rewrite !iter_two|lia| |].
    + rewrite iter_two in A. exact A.
    + intros j J. rewrite <- iter_two. apply R. lia.
Qed.
Lemma dist_pos : forall r, ok r -> / 2 ^ (2 * L) <= dist r.
Proof.
  intros r H. unfold dist_of, first_of, second_of. rewrite !HP by apply Hn. set (p := P (next r)). set (q := P (next (next r))).
  assert (Q : (1 <= p * p + q * q)%Z). { destruct (Z.eq_dec p 0) as [E|E]; [|nia]. assert (q <> 0)%Z by (apply Hz; [apply Hn|exact E]). nia. }
  apply IZR_le in Q. rewrite plus_IZR, !mult_IZR in Q. assert (T : 0 < 2 ^ L) by (apply pow_lt; lra). replace (2 * L)%nat with (L + L)%nat by lia. rewrite pow_add.
  apply Rmult_le_reg_r with (2 ^ L * 2 ^ L); [nra|]. rewrite Rinv_l by nra. replace ((IZR p / 2 ^ L * (IZR p / 2 ^ L) + IZR q / 2 ^ L * (IZR q / 2 ^ L)) * (2 ^ L * 2 ^ L)) with (IZR p * IZR p + IZR q * IZR q) by (field; lra). exact Q.
Qed.
Lemma dist_gt : forall r, ok r -> 0 < dist r.
Proof. intros r H. apply Rlt_le_trans with (/ 2 ^ (2 * L)); [apply Rinv_0_lt_compat, pow_lt; lra|now apply dist_pos]. Qed.
Lemma polar_ends : forall r, ok r -> exists k, (Z.of_nat k < M)%Z /\ let s := Nat.iter (2 * k) next r in 0 < dist s < 1 /\ (forall j, (j < k)%nat -> 1 <= dist (Nat.iter (2 * j) next r)) /\
  forall fuel, (k < fuel)%nat -> polar next uni fuel r = Some (first_of next uni s, second_of next uni s, Nat.iter (2 * S k) next r).
Proof.
  intros r H. destruct (some_accepted r H) as (m & M1 & A). destruct (first_accepted m r A) as (k & K1 & K2 & K3). exists k. split; [lia|]. cbv zeta. split; [split; [apply dist_gt, iter_ok, H|exact K2]|]. split; [exact K3|].
  intros fuel F. now apply polar_run.
Qed.
Lemma ln_pow2 : forall n, ln (2 ^ n) = INR n * ln 2.
Proof. induction n; [cbn; rewrite ln_1; ring|]. rewrite S_INR. cbn [pow]. rewrite ln_mult by (try apply pow_lt; lra). rewrite IHn. ring. Qed.
Lemma value_bound : forall x w, x * x <= w -> / 2 ^ (2 * L) <= w -> w < 1 -> (x * sqrt (-2 * ln w / w)) * (x * sqrt (-2 * ln w / w)) <= INR (4 * L) * ln 2.
Proof.
  intros x w X W W1. assert (P0 : 0 < / 2 ^ (2 * L)) by (apply Rinv_0_lt_compat, pow_lt; lra). assert (W0 : 0 < w) by lra.
  assert (LW : ln w < 0) by (rewrite <- ln_1; apply ln_increasing; lra).
  assert (LB : - (INR (2 * L) * ln 2) <= ln w). { rewrite <- ln_pow2, <- ln_Rinv by (apply pow_lt; lra). destruct W as [W|W]; [left; now apply ln_increasing|rewrite W; lra]. }
  assert (Q : 0 <= -2 * ln w / w) by (apply Rmult_le_pos; [lra|left; now apply Rinv_0_lt_compat]).
  replace (x * sqrt (-2 * ln w / w) * (x * sqrt (-2 * ln w / w))) with (x * x * (sqrt (-2 * ln w / w) * sqrt (-2 * ln w / w))) by ring. rewrite sqrt_sqrt by exact Q.
  apply Rle_trans with (w * (-2 * ln w / w)); [apply Rmult_le_compat_r; assumption|]. replace (w * (-2 * ln w / w)) with (-2 * ln w) by (field; lra).
  replace (4 * L)%nat with (2 * L + 2 * L)%nat by lia. rewrite plus_INR. lra.
Qed.
Lemma geo_ext : forall v v' f n i, (forall j, (i <= j)%nat -> v j = v' j) -> geo_loop v f n i = geo_loop v' f n i.
Proof. intros v v'. induction f; intros n i H; [reflexivity|]. cbn [geo_loop]. destruct (Nat.ltb i n); [|reflexivity]. unfold geo_pair. rewrite (H i (le_n _)). f_equal. apply IHf. intros j J. apply H. lia. Qed.
Lemma run_ends : forall rounds n i r, ok r -> exists fuel out m, (forall f, (fuel <= f)%nat -> normal_run next uni f rounds n i r = Some (out, Nat.iter (2 * m) next r)) /\
  (forall j x, In (j, x) out -> x * x <= INR (4 * L) * ln 2) /\
  exists v, out = geo_loop v rounds n i /\ forall j, let x1 := 2 * fst (v j) - 1 in let x2 := 2 * snd (v j) - 1 in 0 < x1 * x1 + x2 * x2 < 1.
Proof.
  set (v0 := fun _ : nat => (3 / 4, 1 / 2)). assert (V0 : forall j : nat, let x1 := 2 * fst (v0 j) - 1 in let x2 := 2 * snd (v0 j) - 1 in 0 < x1 * x1 + x2 * x2 < 1) by (intros j; cbv zeta; unfold v0; cbn [fst snd]; lra).
  induction rounds; intros n i r H.
  - exists 0%nat, [], 0%nat. split; [reflexivity|]. split; [intros j x []|]. exists v0. split; [reflexivity|exact V0].
  - cbn [normal_run geo_loop]. destruct (Nat.ltb i n).
    + destruct (polar_ends r H) as (k & _ & D & _ & PR). cbv zeta in D, PR. set (s := Nat.iter (2 * k) next r) in *. assert (OS : ok s) by (apply iter_ok, H).
      destruct (IHrounds n (i + 2)%nat (Nat.iter (2 * S k) next r) (iter_ok _ _ H)) as (fuel & out & m & RN & BD & v & GV & VV). pose proof (dist_pos s OS) as DP.
      eexists (Nat.max fuel (S k)), _, (m + S k)%nat. split; [|split].
      * intros f F. rewrite PR by lia. cbv zeta. rewrite RN by lia. do 2 f_equal. rewrite <- it_add. f_equal. lia.
      * unfold dist_of in D, DP. set (x1 := first_of next uni s) in *. set (x2 := second_of next uni s) in *. intros j x I. apply in_app_iff in I. destruct I as [[I|I]|I].
        -- injection I as _ <-. apply value_bound; [nra|exact DP|tauto].
        -- destruct (_ || _) in I; [destruct I as [I|[]]; injection I as _ <-|destruct I]. apply value_bound; [nra|exact DP|tauto].
        -- now apply (BD j).
      * exists (fun j => if Nat.eqb j i then (uni (next s), uni (next (next s))) else v j). split.
        -- f_equal; [unfold geo_pair; rewrite Nat.eqb_refl; reflexivity|]. rewrite GV. apply geo_ext. intros j J. destruct (Nat.eqb_spec j i); [lia|reflexivity].
        -- intros j. cbv zeta. destruct (Nat.eqb j i); [exact D|apply VV].
    + exists 0%nat, [], 0%nat. split; [reflexivity|]. split; [intros j x []|]. exists v0. split; [reflexivity|exact V0].
Qed.
Lemma normal_ends : forall n r, ok r -> samples_normal next uni (INR (4 * L) * ln 2) n r.
Proof.
  intros n r H. destruct (run_ends n n 0 r H) as (fuel & out & m & RN & BD & v & GV & VV). exists fuel, out, m. split; [exact RN|]. split; [rewrite GV; apply geo_indices|]. split; [exact BD|]. exists v. split; [exact GV|exact VV].
Qed.
End Any.

(** ** The two generators *)
Lemma lcg_parity : forall r, Z.odd (lcg_next r) = negb (Z.odd r).
Proof.
  intros r. unfold lcg_next. rewrite Z.mod_eq by (unfold two64; lia). rewrite Z.odd_sub, Z.odd_add, !Z.odd_mul. change (Z.odd two64) with false. change (Z.odd lcg_a) with true. change (Z.odd lcg_b) with true.
  destruct (Z.odd r); reflexivity.
Qed.
Lemma d48_parity : forall r, Z.odd (d48_next r) = negb (Z.odd r).
Proof.
  intros r. unfold d48_next. rewrite Z.mod_eq by (unfold two48; lia). rewrite Z.odd_sub, Z.odd_add, !Z.odd_mul. change (Z.odd two48) with false. change (Z.odd d48_a) with true. change (Z.odd d48_b) with true.
  destruct (Z.odd r); reflexivity.
Qed.
Lemma lcg_square : forall r, 2 * uniform_of r - 1 = IZR (to_double r - 2 ^ 63) / 2 ^ 63.
Proof.
  intros r. unfold uniform_of. change two64 with (2 * 2 ^ 63)%Z. rewrite mult_IZR, minus_IZR. replace (2 ^ 63)%R with (IZR (2 ^ 63)) by (rewrite (pow_IZR 2 63); f_equal).
  assert (0 < IZR (2 ^ 63)) by (apply IZR_lt; lia). set (t := IZR (2 ^ 63)) in *. field. lra.
Qed.
Lemma d48_square : forall r, 2 * d48_uniform_of r - 1 = IZR (r - 2 ^ 47) / 2 ^ 47.
Proof.
  intros r. unfold d48_uniform_of. change two48 with (2 * 2 ^ 47)%Z. rewrite mult_IZR, minus_IZR. replace (2 ^ 47)%R with (IZR (2 ^ 47)) by (rewrite (pow_IZR 2 47); f_equal).
  assert (0 < IZR (2 ^ 47)) by (apply IZR_lt; lia). set (t := IZR (2 ^ 47)) in *. field. lra.
Qed.
(** two numbers in a row are never both in the middle *)
Definition near_middle (r : Z) : bool := ((2 ^ 63 - 1024 <=? r) && (r <=? 2 ^ 63 + 1024))%Z.
Lemma middle_once : forallb (fun k => negb (near_middle (lcg_next (2 ^ 63 - 1024 + Z.of_nat k)))) (seq 0 2049) = true.
Proof. vm_compute. reflexivity. Qed.
Lemma middle_near : forall r, state r -> (to_double r - 2 ^ 63 = 0)%Z -> near_middle r = true.
Proof.
  intros r S E. unfold state in S. unfold near_middle. destruct (Z_lt_le_dec r (2 ^ 53)) as [A|A].
  - rewrite to_double_small in E by lia. lia.
  - destruct (to_double_near r ltac:(lia)) as (q & _ & D & _). destruct (log2_bounds r ltac:(lia)) as [Lg _]. assert (T : (2 ^ (Z.log2 r - 52) <= 2 ^ 11)%Z) by (apply Z.pow_le_mono_r; lia). change (2 ^ 11)%Z with 2048%Z in T.
    apply andb_true_iff. rewrite !Z.leb_le. lia.
Qed.
Lemma lcg_apart : forall r, (0 <= r < 2 * 2 ^ 63)%Z -> (to_double r - 2 ^ 63 = 0)%Z -> (to_double (lcg_next r) - 2 ^ 63 <> 0)%Z.
Proof.
  intros r S E F. assert (S1 : state r) by (unfold state; change two64 with (2 * 2 ^ 63)%Z; exact S). apply middle_near in E; [|exact S1]. apply middle_near in F; [|apply next_state].
  unfold near_middle in E at 1. apply andb_true_iff in E. rewrite !Z.leb_le in E. pose proof middle_once as Q. rewrite forallb_forall in Q. specialize (Q (Z.to_nat (r - (2 ^ 63 - 1024)))).
  rewrite Z2Nat.id in Q by lia. replace (2 ^ 63 - 1024 + (r - (2 ^ 63 - 1024)))%Z with r in Q by lia. rewrite F in Q. assert (false = true) by (apply Q; apply in_seq; lia). discriminate.
Qed.
Lemma d48_apart : forall r, (0 <= r < 2 * 2 ^ 47)%Z -> (r - 2 ^ 47 = 0)%Z -> (d48_next r - 2 ^ 47 <> 0)%Z.
Proof. intros r S E. assert (r = 2 ^ 47)%Z as -> by lia. vm_compute. discriminate. Qed.
Lemma d48_acc : forall r, (let p := d48_next r - 2 ^ 47 in let q := d48_next (d48_next r) - 2 ^ 47 in p * p + q * q < 2 ^ 47 * 2 ^ 47)%Z -> dist_of d48_next d48_uniform_of r < 1.
Proof.
  intros r H. cbv zeta in H. unfold dist_of, first_of, second_of. rewrite !d48_square. apply IZR_lt in H. rewrite plus_IZR, !mult_IZR in H. replace (2 ^ 47)%R with (IZR (2 ^ 47)) by (rewrite (pow_IZR 2 47); f_equal).
  assert (T : 0 < IZR (2 ^ 47)) by (apply IZR_lt; lia). set (p := IZR (d48_next r - 2 ^ 47)) in *. set (q := IZR (d48_next (d48_next r) - 2 ^ 47)) in *. set (t := IZR (2 ^ 47)) in *.
  apply Rmult_lt_reg_r with (t * t); [nra|]. replace ((p / t * (p / t) + q / t * (q / t)) * (t * t)) with (p * p + q * q) by (field; lra). lra.
Qed.
Lemma lcg_acc : forall r, (let p := to_double (lcg_next r) - 2 ^ 63 in let q := to_double (lcg_next (lcg_next r)) - 2 ^ 63 in p * p + q * q < 2 ^ 63 * 2 ^ 63)%Z -> dist_of lcg_next uniform_of r < 1.
Proof.
  intros r H. cbv zeta in H. unfold dist_of, first_of, second_of. rewrite !lcg_square. apply IZR_lt in H. rewrite plus_IZR, !mult_IZR in H. replace (2 ^ 63)%R with (IZR (2 ^ 63)) by (rewrite (pow_IZR 2 63); f_equal).
  assert (T : 0 < IZR (2 ^ 63)) by (apply IZR_lt; lia). set (p := IZR (to_double (lcg_next r) - 2 ^ 63)) in *. set (q := IZR (to_double (lcg_next (lcg_next r)) - 2 ^ 63)) in *. set (t := IZR (2 ^ 63)) in *.
  apply Rmult_lt_reg_r with (t * t); [nra|]. replace ((p / t * (p / t) + q / t * (q / t)) * (t * t)) with (p * p + q * q) by (field; lra). lra.
Qed.
Lemma lcg_rej : forall r, (let p := to_double (lcg_next r) - 2 ^ 63 in let q := to_double (lcg_next (lcg_next r)) - 2 ^ 63 in 2 ^ 63 * 2 ^ 63 <= p * p + q * q)%Z -> 1 <= dist_of lcg_next uniform_of r.
Proof.
  intros r H. cbv zeta in H. unfold dist_of, first_of, second_of. rewrite !lcg_square. apply IZR_le in H. rewrite plus_IZR, !mult_IZR in H. replace (2 ^ 63)%R with (IZR (2 ^ 63)) by (rewrite (pow_IZR 2 63); f_equal).
  assert (T : 0 < IZR (2 ^ 63)) by (apply IZR_lt; lia). set (p := IZR (to_double (lcg_next r) - 2 ^ 63)) in *. set (q := IZR (to_double (lcg_next (lcg_next r)) - 2 ^ 63)) in *. set (t := IZR (2 ^ 63)) in *.
  apply Rmult_le_reg_r with (t * t); [nra|]. replace ((p / t * (p / t) + q / t * (q / t)) * (t * t)) with (p * p + q * q) by (field; lra). lra.
Qed.
Lemma lcg_reach : forall r x, (0 <= r < 2 * 2 ^ 63)%Z -> (0 <= x < 2 * 2 ^ 63)%Z -> exists n, (0 <= n < 2 * 2 ^ 63)%Z /\ Nat.iter (Z.to_nat n) lcg_next r = x.
Proof. intros r x A B. destruct (iter_surj r x A B) as (n & N & E). exists n. split; [exact N|]. rewrite <- iter_lcg. exact E. Qed.
Lemma d48_reach : forall r x, (0 <= r < 2 * 2 ^ 47)%Z -> (0 <= x < 2 * 2 ^ 47)%Z -> exists n, (0 <= n < 2 * 2 ^ 47)%Z /\ Nat.iter (Z.to_nat n) d48_next r = x.
Proof. intros r x A B. destruct (d_iter_surj r x A B) as (n & N & E). exists n. split; [exact N|]. rewrite <- iter_d48. exact E. Qed.
Theorem lcg_polar_ends : forall r, (0 <= r < 2 ^ 64)%Z -> exists k, (Z.of_nat k < 2 ^ 63)%Z /\ let s := Nat.iter (2 * k) lcg_next r in 0 < dist_of lcg_next uniform_of s < 1 /\
  (forall j, (j < k)%nat -> 1 <= dist_of lcg_next uniform_of (Nat.iter (2 * j) lcg_next r)) /\
  forall fuel, (k < fuel)%nat -> polar lcg_next uniform_of fuel r = Some (first_of lcg_next uniform_of s, second_of lcg_next uniform_of s, Nat.iter (2 * S k) lcg_next r).
Proof.
  intros r H. refine (polar_ends lcg_next uniform_of (2 ^ 63) (fun r => to_double r - 2 ^ 63)%Z 63 4 5 _ lcg_reach lcg_parity _ _ _ lcg_apart r H).
  - exact next_state.
  - split; [lia|]. split; [reflexivity|]. apply lcg_acc. vm_compute. reflexivity.
  - split; [lia|]. split; [reflexivity|]. apply lcg_acc. vm_compute. reflexivity.
  - intros x _. apply lcg_square.
Qed.
Theorem lcg_normal : forall n r, (0 <= r < 2 ^ 64)%Z -> samples_normal lcg_next uniform_of (252 * ln 2) n r.
Proof.
  intros n r H. replace 252 with (INR (4 * 63)) by (rewrite INR_IZR_INZ; reflexivity). refine (normal_ends lcg_next uniform_of (2 ^ 63) (fun r => to_double r - 2 ^ 63)%Z 63 4 5 _ lcg_reach lcg_parity _ _ _ lcg_apart n r H).
  - exact next_state.
  - split; [lia|]. split; [reflexivity|]. apply lcg_acc. vm_compute. reflexivity.
  - split; [lia|]. split; [reflexivity|]. apply lcg_acc. vm_compute. reflexivity.
  - intros x _. apply lcg_square.
Qed.
Theorem d48_polar_ends : forall r, (0 <= r < 2 ^ 48)%Z -> exists k, (Z.of_nat k < 2 ^ 47)%Z /\ let s := Nat.iter (2 * k) d48_next r in 0 < dist_of d48_next d48_uniform_of s < 1 /\
  (forall j, (j < k)%nat -> 1 <= dist_of d48_next d48_uniform_of (Nat.iter (2 * j) d48_next r)) /\
  forall fuel, (k < fuel)%nat -> polar d48_next d48_uniform_of fuel r = Some (first_of d48_next d48_uniform_of s, second_of d48_next d48_uniform_of s, Nat.iter (2 * S k) d48_next r).
Proof.
  intros r H. refine (polar_ends d48_next d48_uniform_of (2 ^ 47) (fun r => r - 2 ^ 47)%Z 47 6484 6485 _ d48_reach d48_parity _ _ _ d48_apart r H).
  - exact d_next_state.
  - split; [lia|]. split; [reflexivity|]. apply d48_acc. vm_compute. reflexivity.
  - split; [lia|]. split; [reflexivity|]. apply d48_acc. vm_compute. reflexivity.
  - intros x _. apply d48_square.
Qed.
Theorem d48_normal : forall n r, (0 <= r < 2 ^ 48)%Z -> samples_normal d48_next d48_uniform_of (188 * ln 2) n r.
Proof.
  intros n r H. replace 188 with (INR (4 * 47)) by (rewrite INR_IZR_INZ; reflexivity). refine (normal_ends d48_next d48_uniform_of (2 ^ 47) (fun r => r - 2 ^ 47)%Z 47 6484 6485 _ d48_reach d48_parity _ _ _ d48_apart n r H).
  - exact d_next_state.
  - split; [lia|]. split; [reflexivity|]. apply d48_acc. vm_compute. reflexivity.
  - split; [lia|]. split; [reflexivity|]. apply d48_acc. vm_compute. reflexivity.
  - intros x _. apply d48_square.
Qed.
(** ** drand48 itself *)
Theorem d48_period : forall n r, (0 <= r < 2 ^ 48)%Z -> (d48_iter n r = r <-> (2 ^ 48 | Z.of_nat n)%Z).
Proof. exact d_period_exact. Qed.
Theorem d48_visits : forall r x, (0 <= r < 2 ^ 48)%Z -> (0 <= x < 2 ^ 48)%Z -> exists n, (0 <= n < 2 ^ 48)%Z /\ d48_iter (Z.to_nat n) r = x.
Proof. exact d_iter_surj. Qed.
Theorem d48_range : forall r, 0 <= d48_uniform_of (d48_next r) < 1.
Proof.
  intros r. destruct (d_next_state r) as [A B]. apply IZR_le in A. apply IZR_lt in B. unfold d48_uniform_of. assert (T : 0 < IZR two48) by (apply IZR_lt; unfold two48; lia).
  split; [apply Rmult_le_pos; [exact A|left; now apply Rinv_0_lt_compat]|]. apply Rmult_lt_reg_r with (IZR two48); [exact T|]. unfold Rdiv. rewrite Rmult_assoc, Rinv_l by lra. lra.
Qed.
(** seeds that differ in their lower 32 bits start from different states, and nothing else of the seed matters *)
Theorem d48_seeds : forall s t, srand48 s = srand48 t <-> (s mod 2 ^ 32 = t mod 2 ^ 32)%Z.
Proof. intros s t. unfold srand48. split; intros H; [lia|now rewrite H]. Qed.
(** a number of [n] things is chosen in range *)
Theorem d48_index : forall n r, (0 < n)%Z -> (0 <= up (d48_uniform_of (d48_next r) * IZR n) - 1 < n)%Z.
Proof.
  intros n r H. destruct (d48_range r) as [A B]. apply IZR_lt in H. set (x := d48_uniform_of (d48_next r) * IZR n). assert (X : 0 <= x < IZR n) by (unfold x; nra). destruct (archimed x) as [U V].
  assert (C : (0 < up x)%Z) by (apply lt_IZR; lra). assert (D : (up x < n + 1)%Z) by (apply lt_IZR; rewrite plus_IZR; lra). lia.
Qed.
