From Coq Require Import ZArith List Reals Bool Lia Lra Znumtheory.
From Verif Require Import RandomModel.
Import ListNotations.
Local Open Scope Z_scope.

(** ** Full period *)
Fixpoint geo (a : Z) (n : nat) : Z := match n with O => 0 | S n => a * geo a n + 1 end.

Lemma iter_form : forall n r, exists k, lcg_iter n r = lcg_a ^ Z.of_nat n * r + lcg_b * geo lcg_a n + k * two64.
Proof.
  induction n; intros r.
  - exists 0. cbn [lcg_iter geo]. change (Z.of_nat 0) with 0. rewrite Z.pow_0_r. lia.
  - destruct (IHn r) as [k E]. cbn [lcg_iter geo]. unfold lcg_next. rewrite E.
    set (X := lcg_a * _ + lcg_b). exists (lcg_a * k - X / two64).
    rewrite Nat2Z.inj_succ, Z.pow_succ_r by lia.
    pose proof (Z.div_mod X two64 ltac:(unfold two64; lia)). unfold X in *. 
    set (p := lcg_a ^ Z.of_nat n) in *. nia.
Qed.

Lemma geo_pow : forall a n, (a - 1) * geo a n = a ^ Z.of_nat n - 1.
Proof.
  induction n; cbn [geo].
  - change (Z.of_nat 0) with 0. rewrite Z.pow_0_r. lia.
  - rewrite Nat2Z.inj_succ, Z.pow_succ_r by lia. nia.
Qed.

Lemma iter_diff : forall n r, exists k, lcg_iter n r - r = geo lcg_a n * ((lcg_a - 1) * r + lcg_b) + k * two64.
Proof.
  intros n r. destruct (iter_form n r) as [k E]. exists k. rewrite E.
  pose proof (geo_pow lcg_a n) as G.
  set (p := lcg_a ^ Z.of_nat n) in *. set (g := geo lcg_a n) in *.
  replace p with ((lcg_a - 1) * g + 1) by lia. ring.
Qed.

Lemma geo_add : forall a n m, geo a (n + m) = a ^ Z.of_nat n * geo a m + geo a n.
Proof.
  induction n; intros m; cbn [geo Nat.add].
  - change (Z.of_nat 0) with 0. rewrite Z.pow_0_r. lia.
  - rewrite IHn, Nat2Z.inj_succ, Z.pow_succ_r by lia. ring.
Qed.
Lemma geo_odd : forall a n, Z.odd a = true -> Z.odd (geo a n) = Nat.odd n.
Proof.
  intros a n Ha. induction n; [reflexivity|].
  cbn [geo]. rewrite Z.odd_add, Z.odd_mul, Ha, IHn. cbn [andb]. rewrite Nat.odd_succ, <- Nat.negb_odd.
  destruct (Nat.odd n); reflexivity.
Qed.
Lemma pow_mod4 : forall c m, exists q, (4 * c + 1) ^ Z.of_nat m = 4 * q + 1.
Proof.
  induction m.
  - exists 0. reflexivity.
  - destruct IHm as [q E]. rewrite Nat2Z.inj_succ, Z.pow_succ_r, E by lia.
    exists (4 * c * q + c + q). ring.
Qed.

Lemma odd_coprime_pow2 : forall k x, Z.odd x = true -> rel_prime (2 ^ Z.of_nat k) x.
Proof.
  intros k x H. apply rel_prime_sym. apply Zpow_facts.rel_prime_Zpower_r; [lia|].
  apply rel_prime_sym. apply prime_rel_prime; [apply prime_2|].
  intros [q E]. rewrite E, Z.odd_mul in H. rewrite andb_false_r in H. discriminate.
Qed.

(** the number of factors of two of the geometric sum is that of n *)
Lemma geo_div : forall c k n, ((2 ^ Z.of_nat k | geo (4 * c + 1) n) <-> (2 ^ Z.of_nat k | Z.of_nat n)).
Proof.
  intros c. set (a := 4 * c + 1).
  assert (Ha : Z.odd a = true).
  { unfold a. rewrite Z.odd_add, Z.odd_mul. reflexivity. }
  induction k; intros n.
  - change (2 ^ Z.of_nat 0) with 1. split; intros _; apply Z.divide_1_l.
  - rewrite Nat2Z.inj_succ, Z.pow_succ_r by lia.
    destruct (Nat.Even_or_Odd n) as [[m E] | [m E]].
    + subst n. replace (2 * m)%nat with (m + m)%nat by lia. rewrite geo_add.
      destruct (pow_mod4 c m) as [q Q]. fold a in Q. rewrite Q.
      replace ((4 * q + 1) * geo a m + geo a m) with (2 * ((2 * q + 1) * geo a m)) by ring.
      replace (Z.of_nat (m + m)) with (2 * Z.of_nat m) by lia.
      rewrite !Z.mul_divide_cancel_l by lia. rewrite <- IHk. split; intros H.
      * apply Gauss with (b := 2 * q + 1); auto. apply odd_coprime_pow2.
        rewrite Z.odd_add, Z.odd_mul. reflexivity.
      * apply Z.divide_mul_r; auto.
    + split; intros [q H]; exfalso.
      * pose proof (geo_odd a n Ha) as G. rewrite H, Z.mul_assoc, Z.odd_mul, Z.odd_mul, E in G.
        rewrite Nat.odd_add, Nat.odd_mul in G. cbn in G. rewrite andb_false_r in G. discriminate.
      * rewrite E in H. lia.
Qed.

Lemma mult_odd : forall r, Z.odd ((lcg_a - 1) * r + lcg_b) = true.
Proof. intros r. rewrite Z.odd_add, Z.odd_mul. reflexivity. Qed.

(** the low k bits return exactly every 2^k draws *)
Lemma low_bits_period : forall k n r, (k <= 64)%nat ->
  (lcg_iter n r mod 2 ^ Z.of_nat k = r mod 2 ^ Z.of_nat k <-> (2 ^ Z.of_nat k | Z.of_nat n)).
Proof.
  intros k n r Hk. assert (P : 0 < 2 ^ Z.of_nat k) by lia.
  rewrite <- (geo_div 715733388944485439 k n). change (4 * 715733388944485439 + 1) with lcg_a.
  destruct (iter_diff n r) as [q E].
  assert (D : (2 ^ Z.of_nat k | two64)).
  { unfold two64. exists (2 ^ (64 - Z.of_nat k)). rewrite <- Z.pow_add_r by lia. f_equal. lia. }
  assert (M : lcg_iter n r mod 2 ^ Z.of_nat k = r mod 2 ^ Z.of_nat k <-> (2 ^ Z.of_nat k | lcg_iter n r - r)).
  { split; intros H.
    - exists (lcg_iter n r / 2 ^ Z.of_nat k - r / 2 ^ Z.of_nat k).
      pose proof (Z.div_mod (lcg_iter n r) (2 ^ Z.of_nat k) ltac:(lia)).
      pose proof (Z.div_mod r (2 ^ Z.of_nat k) ltac:(lia)). lia.
    - destruct H as [t H]. replace (lcg_iter n r) with (r + t * 2 ^ Z.of_nat k) by lia. apply Z.mod_add; lia. }
  rewrite M, E. split; intros H.
  - apply Gauss with (b := (lcg_a - 1) * r + lcg_b); [|apply odd_coprime_pow2, mult_odd].
    rewrite Z.mul_comm.
    replace (geo lcg_a n * ((lcg_a - 1) * r + lcg_b)) with
      (geo lcg_a n * ((lcg_a - 1) * r + lcg_b) + q * two64 - q * two64) by lia.
    apply Z.divide_sub_r; auto. apply Z.divide_mul_r; auto.
  - apply Z.divide_add_r; [apply Z.divide_mul_l | apply Z.divide_mul_r]; auto.
Qed.

Definition state (r : Z) : Prop := 0 <= r < two64.
Lemma next_state : forall r, state (lcg_next r).
Proof. intros. unfold state, lcg_next. apply Z.mod_pos_bound. unfold two64. lia. Qed.
Lemma iter_state : forall n r, state r -> state (lcg_iter n r).
Proof. destruct n; intros; cbn [lcg_iter]; auto using next_state. Qed.

Lemma period_exact : forall n r, state r -> (lcg_iter n r = r <-> (two64 | Z.of_nat n)).
Proof.
  intros n r H. pose proof (low_bits_period 64 n r (le_n _)) as L.
  change (2 ^ Z.of_nat 64) with two64 in L. rewrite <- L.
  pose proof (iter_state n r H) as K. unfold state in *. rewrite !Z.mod_small by lia. reflexivity.
Qed.

Lemma iter_add : forall n m r, lcg_iter (n + m) r = lcg_iter n (lcg_iter m r).
Proof. induction n; intros; cbn [lcg_iter Nat.add]; auto. now rewrite IHn. Qed.

Lemma iter_inj : forall i j r, state r -> Z.of_nat i < two64 -> Z.of_nat j < two64 ->
  lcg_iter i r = lcg_iter j r -> i = j.
Proof.
  assert (W : forall i j r, state r -> (i <= j)%nat -> Z.of_nat j < two64 -> lcg_iter i r = lcg_iter j r -> i = j).
  { intros i j r H L J E. replace j with (j - i + i)%nat in E by lia. rewrite iter_add in E. symmetry in E.
    apply period_exact in E; [|apply iter_state; auto].
    destruct E as [q E]. assert (q = 0) by nia. lia. }
  intros i j r H I J E. destruct (le_lt_dec i j); [eapply W; eauto|]. symmetry. eapply W; eauto. lia.
Qed.

(** pigeonhole *)
Lemma iter_surj : forall r x, state r -> state x ->
  exists n, 0 <= n < two64 /\ lcg_iter (Z.to_nat n) r = x.
Proof.
  intros r x Hr Hx.
  assert (G : forall N, Z.of_nat N = two64 -> exists n, 0 <= n < two64 /\ lcg_iter (Z.to_nat n) r = x).
  { intros N EN.
    set (l := map (fun i => lcg_iter i r) (seq 0 N)).
    set (l' := map Z.of_nat (seq 0 N)).
    assert (ND : NoDup l).
    { unfold l. assert (Q : forall i, In i (seq 0 N) -> Z.of_nat i < two64).
      { intros i I. apply in_seq in I. lia. }
      revert Q. generalize (seq_NoDup N 0). generalize (seq 0 N). intros s. induction s; intros D Q; [constructor|].
      inversion D; subst. cbn [map]. constructor.
      - intros I. apply in_map_iff in I. destruct I as (i & E & I).
        apply iter_inj in E; auto; [congruence | apply Q; right; auto | apply Q; left; auto].
      - apply IHs; auto. intros; apply Q; now right. }
    assert (IN : incl l l').
    { intros y Y. unfold l in Y. apply in_map_iff in Y. destruct Y as (i & <- & _).
      pose proof (iter_state i r Hr) as S. unfold state in S. unfold l'. apply in_map_iff.
      exists (Z.to_nat (lcg_iter i r)). split; [apply Z2Nat.id; lia|]. apply in_seq. lia. }
    assert (IN' : incl l' l).
    { apply NoDup_length_incl; auto. unfold l, l'. rewrite !map_length. lia. }
    assert (X : In x l').
    { unfold l'. apply in_map_iff. exists (Z.to_nat x). unfold state in Hx. split; [apply Z2Nat.id; lia|]. apply in_seq. lia. }
    apply IN' in X. unfold l in X. apply in_map_iff in X. destruct X as (i & E & I). apply in_seq in I.
    exists (Z.of_nat i). split; [lia|]. rewrite Nat2Z.id. exact E. }
  apply (G (Z.to_nat two64)). apply Z2Nat.id. unfold two64. lia.
Qed.

Lemma next_bijective : forall y, state y -> exists x, state x /\ lcg_next x = y /\ forall x', state x' -> lcg_next x' = y -> x' = x.
Proof.
  intros y Hy. destruct (iter_surj (lcg_next y) y (next_state y) Hy) as (n & Hn & E).
  exists (lcg_iter (Z.to_nat n) y).
  assert (SW : forall n, lcg_iter n (lcg_next y) = lcg_next (lcg_iter n y)).
  { clear. induction n; cbn [lcg_iter]; congruence. }
  rewrite SW in E. split; [apply iter_state; auto|]. split; auto.
  assert (K : forall x x', state x -> state x' -> lcg_next x = lcg_next x' -> x = x').
  { intros x x' A A' H.
    destruct (iter_surj x x' A A') as (m & Hm & Em).
    assert (X : lcg_iter (Z.to_nat m) (lcg_next x) = lcg_next x).
    { clear SW E. assert (SW : forall n z, lcg_iter n (lcg_next z) = lcg_next (lcg_iter n z)).
      { clear. induction n; intros; cbn [lcg_iter]; congruence. }
      rewrite SW, Em. auto. }
    apply period_exact in X; [|apply next_state]. rewrite Z2Nat.id in X by lia.
    destruct X as [q X]. assert (Q : q = 0) by nia. rewrite Q, Z.mul_0_l in X. rewrite X in Em. exact Em. }
  intros x' Hx' E'. apply K; auto; [apply iter_state; auto | congruence].
Qed.

(** ** Uniform deviate *)
(** nearest representable: [d] is a multiple of the spacing, at distance at
    most half of it *)
Lemma to_double_small : forall r, 0 <= r < 2 ^ 53 -> to_double r = r.
Proof. intros r H. unfold to_double. destruct (Z.ltb_spec r (2 ^ 53)); lia. Qed.

Lemma log2_bounds : forall r, 2 ^ 53 <= r < two64 -> 53 <= Z.log2 r <= 63 /\ 2 ^ Z.log2 r <= r < 2 * 2 ^ Z.log2 r.
Proof.
  intros r H. pose proof (Z.log2_spec r ltac:(lia)) as L. rewrite Z.pow_succ_r in L by apply Z.log2_nonneg.
  split; [|lia]. split.
  - apply Z.log2_le_pow2; lia.
  - assert (Z.log2 r < 64); [|lia]. apply Z.log2_lt_pow2; [lia|]. unfold two64 in H. lia.
Qed.

Lemma to_double_near : forall r, 2 ^ 53 <= r < two64 ->
  exists q, to_double r = q * 2 ^ (Z.log2 r - 52) /\ 2 * Z.abs (to_double r - r) <= 2 ^ (Z.log2 r - 52) /\
            (2 * Z.abs (to_double r - r) = 2 ^ (Z.log2 r - 52) -> Z.even q = true) /\
            2 ^ 52 <= q <= 2 ^ 53.
Proof.
  intros r H. destruct (log2_bounds r H) as [L B].
  unfold to_double. destruct (Z.ltb_spec r (2 ^ 53)); [lia|].
  set (e := Z.log2 r - 52). cbv zeta.
  assert (E2 : 2 ^ e = 2 * 2 ^ (e - 1)). { rewrite <- Z.pow_succ_r by lia. f_equal. lia. }
  assert (E0 : 0 < 2 ^ (e - 1)) by (apply Z.pow_pos_nonneg; lia).
  assert (EB : 2 ^ Z.log2 r = 2 ^ 52 * 2 ^ e). { rewrite <- Z.pow_add_r by lia. f_equal. unfold e. lia. }
  pose proof (Z.div_mod r (2 ^ e) ltac:(lia)) as D.
  pose proof (Z.mod_pos_bound r (2 ^ e) ltac:(lia)) as M.
  set (q := r / 2 ^ e) in *. set (m := r mod 2 ^ e) in *. set (h := 2 ^ (e - 1)) in *.
  assert (Q : 2 ^ 52 <= q < 2 ^ 53).
  { change (2 ^ 53) with (2 * 2 ^ 52). nia. }
  destruct ((h <? m) || ((h =? m) && Z.odd q)) eqn:U.
  - exists (q + 1). split; auto. split; [|split; [|lia]].
    + assert (h <= m). { apply orb_true_iff in U. destruct U as [U|U]; [lia|]. apply andb_true_iff in U. lia. }
      rewrite Z.abs_eq; nia.
    + intros K. assert (X : (h <? m) = false).
      { apply Z.ltb_ge. fold e in K. rewrite D in K at 1. rewrite Z.abs_eq in K; nia. }
      rewrite X in U. cbn [orb] in U. apply andb_true_iff in U. destruct U as [_ U].
      rewrite Z.even_add, <- Z.negb_odd, U. reflexivity.
  - apply orb_false_iff in U. destruct U as [U U2]. exists q. split; auto. split; [|split; [|lia]].
    + rewrite Z.abs_neq; nia.
    + intros K. assert (X : h = m).
      { fold e in K. rewrite Z.abs_neq in K; nia. }
      rewrite X, Z.eqb_refl in U2. cbn [andb] in U2. rewrite <- Z.negb_odd, U2. reflexivity.
Qed.

Lemma to_double_range : forall r, state r -> 0 <= to_double r <= two64.
Proof.
  intros r H. unfold state in H. destruct (Z_lt_le_dec r (2 ^ 53)) as [S|S].
  - rewrite to_double_small by lia. lia.
  - destruct (to_double_near r ltac:(lia)) as (q & E & _ & _ & Q). destruct (log2_bounds r ltac:(lia)) as [L _].
    rewrite E. assert (0 < 2 ^ (Z.log2 r - 52)) by (apply Z.pow_pos_nonneg; lia). split; [nia|].
    assert (2 ^ (Z.log2 r - 52) <= 2 ^ 11) by (apply Z.pow_le_mono_r; lia).
    unfold two64. change (2 ^ 64) with (2 ^ 53 * 2 ^ 11). nia.
Qed.

Lemma to_double_zero : forall r, state r -> (to_double r = 0 <-> r = 0).
Proof.
  intros r H. unfold state in H. destruct (Z_lt_le_dec r (2 ^ 53)) as [S|S].
  - rewrite to_double_small by lia. reflexivity.
  - destruct (to_double_near r ltac:(lia)) as (q & E & _ & _ & Q). destruct (log2_bounds r ltac:(lia)) as [L _].
    assert (0 < 2 ^ (Z.log2 r - 52)) by (apply Z.pow_pos_nonneg; lia). split; [nia|lia].
Qed.

Lemma to_double_one : forall r, state r -> (to_double r = two64 <-> two64 - 1024 <= r).
Proof.
  intros r H. unfold state in H.
  destruct (Z_lt_le_dec r (2 ^ 63)) as [S|S].
  - split; [|unfold two64; lia]. intros E. exfalso.
    destruct (Z_lt_le_dec r (2 ^ 53)) as [S'|S'].
    + rewrite to_double_small in E by lia. lia.
    + destruct (to_double_near r ltac:(lia)) as (q & E' & _ & _ & Q).
      assert (L : Z.log2 r < 63) by (apply Z.log2_lt_pow2; lia).
      assert (2 ^ (Z.log2 r - 52) <= 2 ^ 10) by (apply Z.pow_le_mono_r; lia).
      rewrite E in E'. unfold two64 in E'. change (2 ^ 64) with (2 ^ 53 * 2 ^ 11) in E'. nia.
  - assert (L : Z.log2 r = 63).
    { apply Z.log2_unique; [lia|]. unfold two64 in H. cbn [Z.succ]. lia. }
    unfold to_double. destruct (Z.ltb_spec r (2 ^ 53)); [lia|]. rewrite L.
    change (63 - 52) with 11. change (11 - 1) with 10. cbv zeta.
    pose proof (Z.div_mod r (2 ^ 11) ltac:(lia)) as D. pose proof (Z.mod_pos_bound r (2 ^ 11) ltac:(lia)) as M.
    set (q := r / 2 ^ 11) in *. set (m := r mod 2 ^ 11) in *.
    change (2 ^ 11) with 2048 in *. change (2 ^ 10) with 1024 in *.
    change two64 with (9007199254740992 * 2048) in *.
    destruct (Z.ltb_spec 1024 m); [cbn [orb]; lia|].
    destruct (Z.eqb_spec 1024 m); cbn [orb andb]; [|lia].
    destruct (Z.odd q) eqn:O.
    + assert (q = 9007199254740991 <-> 9007199254740992 * 2048 - 1024 <= r) by lia. lia.
    + split; [lia|]. intros K. assert (q = 9007199254740991) by lia. subst q. rewrite H2 in O. discriminate.
Qed.

Local Open Scope R_scope.
Lemma two64_pos : 0 < IZR two64.
Proof. apply IZR_lt. unfold two64. lia. Qed.
Lemma uniform_range : forall r, state r -> 0 <= uniform_of r <= 1.
Proof.
  intros r H. destruct (to_double_range r H) as [A B]. unfold uniform_of. pose proof two64_pos as P.
  apply IZR_le in A, B. split.
  - apply Rmult_le_pos; auto. left. now apply Rinv_0_lt_compat.
  - apply Rmult_le_reg_r with (IZR two64); auto. unfold Rdiv. rewrite Rmult_assoc, Rinv_l by lra. lra.
Qed.
Lemma uniform_zero : forall r, state r -> (uniform_of r = 0 <-> r = 0%Z).
Proof.
  intros r H. rewrite <- to_double_zero by auto. unfold uniform_of. pose proof two64_pos as P. split; intros E.
  - apply eq_IZR. apply Rmult_eq_reg_r with (/ IZR two64); [|apply Rinv_neq_0_compat; lra]. unfold Rdiv in E. lra.
  - rewrite E. unfold Rdiv. ring.
Qed.
Lemma uniform_one : forall r, state r -> (uniform_of r = 1 <-> (two64 - 1024 <= r)%Z).
Proof.
  intros r H. rewrite <- to_double_one by auto. unfold uniform_of. pose proof two64_pos as P. split; intros E.
  - apply eq_IZR. apply Rmult_eq_reg_r with (/ IZR two64); [|apply Rinv_neq_0_compat; lra].
    rewrite Rinv_r by lra. exact E.
  - rewrite E. unfold Rdiv. apply Rinv_r. lra.
Qed.

(** ** Normal deviates *)
Lemma even_flag : forall n, Nat.ltb 0 ((n + 1) mod 2) = Nat.even n.
Proof.
  intros n. destruct (Nat.Even_or_Odd n) as [[m E] | [m E]]; subst.
  - replace (2 * m + 1)%nat with (1 + m * 2)%nat by lia. rewrite Nat.mod_add by lia.
    rewrite Nat.even_mul. reflexivity.
  - replace (2 * m + 1 + 1)%nat with (0 + (m + 1) * 2)%nat by lia. rewrite Nat.mod_add by lia.
    rewrite Nat.even_add, Nat.even_mul. reflexivity.
Qed.
Lemma loop_indices : forall (pair : nat -> nat -> nat -> list (nat * R)),
  (forall n i k, map fst (pair n i k) = i :: (if (Z.ltb (Z.of_nat i) (Z.of_nat n - 2)) || Nat.even n then [S i] else [])) ->
  forall loop : nat -> nat -> nat -> nat -> list (nat * R),
  (forall n i k, loop O n i k = []) ->
  (forall f n i k, loop (S f) n i k = if Nat.ltb i n then pair n i k ++ loop f n (i + 2)%nat (k + 2)%nat else []) ->
  forall f n i k, (n <= i + f)%nat -> Nat.even i = true ->
  map fst (loop f n i k) = seq i (n - i).
Proof.
  intros pair HP loop L0 L1 f. induction f; intros n i k H E.
  - rewrite L0. replace (n - i)%nat with 0%nat by lia. reflexivity.
  - rewrite L1. destruct (Nat.ltb_spec i n).
    + rewrite map_app, HP. destruct (Z.ltb_spec (Z.of_nat i) (Z.of_nat n - 2)); cbn [orb].
      * rewrite IHf; [|lia | rewrite Nat.even_add, E; reflexivity].
        replace (n - i)%nat with (2 + (n - (i + 2)))%nat by lia. cbn [seq Nat.add app].
        replace (S (S i)) with (i + 2)%nat by lia. reflexivity.
      * destruct (Nat.even n) eqn:EN.
        -- assert (n = i + 2)%nat.
           { apply Nat.even_spec in E, EN. destruct E, EN. lia. }
           subst. rewrite IHf; [|lia | rewrite Nat.even_add, E; reflexivity].
           replace (i + 2 - i)%nat with 2%nat by lia. replace (i + 2 - (i + 2))%nat with 0%nat by lia. reflexivity.
        -- assert (n = i + 1)%nat.
           { assert (n <> i + 2)%nat by (intros ->; rewrite Nat.even_add, E in EN; discriminate). lia. }
           subst. rewrite IHf; [|lia | rewrite Nat.even_add, E; reflexivity].
           replace (i + 1 - i)%nat with 1%nat by lia. replace (i + 1 - (i + 2))%nat with 0%nat by lia. reflexivity.
    + replace (n - i)%nat with 0%nat by lia. reflexivity.
Qed.

Lemma common_indices : forall u n, map fst (normal_common u n) = seq 0 n.
Proof.
  intros u n. unfold normal_common.
  rewrite (loop_indices (bm_pair u)) with (loop := bm_loop u); auto; try lia; [f_equal; lia|].
  intros. unfold bm_pair. rewrite even_flag. destruct (_ || _); reflexivity.
Qed.
Lemma geo_indices : forall v n, map fst (normal_geo v n) = seq 0 n.
Proof.
  intros v n. unfold normal_geo.
  pose proof (loop_indices (fun n i _ => geo_pair v n i)
    ltac:(intros; unfold geo_pair; cbv zeta; rewrite even_flag; destruct (_ || _); reflexivity)
    (fun f n i _ => geo_loop v f n i) ltac:(reflexivity) ltac:(reflexivity)) as H.
  rewrite (H n n 0%nat 0%nat) by (auto; lia). f_equal. lia.
Qed.

(** the pair is (w cos, w sin) *)
Lemma sqrt_sin : forall x, sqrt (1 - cos x * cos x) = Rabs (sin x).
Proof. intros x. pose proof (sin2_cos2 x) as H. unfold Rsqr in H. replace (1 - cos x * cos x) with (Rsqr (sin x)) by (unfold Rsqr; lra). apply sqrt_Rsqr_abs. Qed.

Lemma bm_second : forall u n i k x, 0 <= u (S k) <= 1 -> In (S i, x) (bm_pair u n i k) ->
  x = sqrt (-2 * ln (u k)) * sin (2 * PI * u (S k)).
Proof.
  intros u n i k x H I. pose proof PI_RGT_0 as PP. unfold bm_pair in I. destruct I as [I | I].
  { injection I. lia. }
  destruct (_ || _); [|destruct I]. destruct I as [I | []]. injection I as <-.
  unfold bm_w, bm_s. rewrite sqrt_sin. destruct (Rlt_dec (u (S k)) (1/2)).
  - rewrite Rabs_right; [reflexivity|]. apply Rle_ge, sin_ge_0; nra.
  - rewrite Rabs_left1; [ring|].
    assert (0 <= sin (2 * PI * u (S k) - PI)) as Q by (apply sin_ge_0; nra).
    replace (sin (2 * PI * u (S k) - PI)) with (- sin (2 * PI * u (S k))) in Q; [lra|].
    rewrite sin_minus, cos_PI, sin_PI. ring.
Qed.
Lemma bm_first : forall u n i k x, In (i, x) (bm_pair u n i k) ->
  x = sqrt (-2 * ln (u k)) * cos (2 * PI * u (S k)).
Proof.
  intros u n i k x I. unfold bm_pair in I. destruct I as [I | I]; [injection I as <-; reflexivity|].
  destruct (_ || _); [|destruct I]. destruct I as [I | []]. injection I. lia.
Qed.

(** Marsaglia's pair: the radius is that of the Box-Muller pair with w *)
Lemma geo_radius : forall v n i x y,
  let x1 := 2 * fst (v i) - 1 in let x2 := 2 * snd (v i) - 1 in let w := x1 * x1 + x2 * x2 in
  0 < w < 1 ->
  geo_pair v n i = [(i, x); (S i, y)] ->
  x * x + y * y = -2 * ln w /\ x * x2 = y * x1.
Proof.
  intros v n i x y x1 x2 w W E. unfold geo_pair in E. fold x1 x2 in E. cbv zeta in E. fold w in E.
  destruct (_ || _) in E; [|discriminate]. injection E as <- <-.
  assert (Hl : 0 <= (-2 * ln w) / w).
  { assert (ln w < 0) by (rewrite <- ln_1; apply ln_increasing; lra).
    apply Rmult_le_pos; [lra|]. left. apply Rinv_0_lt_compat. lra. }
  pose proof (sqrt_sqrt _ Hl) as S. set (s := sqrt _) in *.
  split; [|ring]. replace (x1 * s * (x1 * s) + x2 * s * (x2 * s)) with (w * (s * s)) by (unfold w; ring).
  rewrite S. field. lra.
Qed.
