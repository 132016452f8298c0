(** Proofs about the samplers of ThmModel *)
From Coq Require Import ZArith List Reals Bool Lia Lra.
Import ListNotations.
From Verif Require Import AfsiModel AfsiProofs RandomModel RandomProofs RejModel RejProofs ThmModel.
Local Open Scope R_scope.

Lemma two48_pos : 0 < IZR two48.
Proof. apply IZR_lt. unfold two48. lia. Qed.
Lemma uni_zero : forall r, d48_uniform_of r = 0 <-> r = 0%Z.
Proof.
  intros r. unfold d48_uniform_of. pose proof two48_pos as T. split; intros H; [|subst; unfold Rdiv; lra].
  apply eq_IZR. apply Rmult_eq_reg_r with (/ IZR two48); [unfold Rdiv in H; lra|]. apply Rinv_neq_0_compat. lra.
Qed.
Lemma uni_low : forall r, d48_next r <> 0%Z -> / 2 ^ 48 <= d48_uniform_of (d48_next r) < 1.
Proof.
  intros r H. split; [|apply d48_range]. destruct (d_next_state r) as [A _]. assert (B : (1 <= d48_next r)%Z) by lia. apply IZR_le in B. unfold d48_uniform_of.
  replace (2 ^ 48) with (IZR two48) by (symmetry; exact (pow_IZR 2 48)). pose proof two48_pos as T. unfold Rdiv. assert (0 < / IZR two48) by now apply Rinv_0_lt_compat. nra.
Qed.
Lemma uni_ln : forall r, d48_next r <> 0%Z -> - (48 * ln 2) <= ln (d48_uniform_of (d48_next r)) < 0.
Proof.
  intros r H. destruct (uni_low r H) as [A B]. assert (P : 0 < / 2 ^ 48) by (apply Rinv_0_lt_compat; apply pow_lt; lra). split.
  - replace (- (48 * ln 2)) with (ln (/ 2 ^ 48)). { destruct A as [A|A]; [left; now apply ln_increasing|right; now rewrite A]. }
    rewrite ln_Rinv by (apply pow_lt; lra). rewrite ln_pow2. rewrite INR_IZR_INZ. reflexivity.
  - rewrite <- ln_1. apply ln_increasing; lra.
Qed.

(** one sample *)
Theorem draw_infinite : forall ti m r, fst (thermal_draw ti m r) = None <-> d48_next r = 0%Z \/ d48_next (d48_next r) = 0%Z.
Proof.
  intros ti m r. unfold thermal_draw. cbv zeta. cbn [fst].
  destruct (Req_EM_T (d48_uniform_of (d48_next r)) 0) as [A|A]; [apply uni_zero in A; tauto|].
  destruct (Req_EM_T (d48_uniform_of (d48_next (d48_next r))) 0) as [B|B]; [apply uni_zero in B; tauto|].
  rewrite uni_zero in A. rewrite uni_zero in B. split; [discriminate|tauto].
Qed.
Theorem draw_bounded : forall ti m r pa pp, 0 < ti -> 0 < m -> fst (thermal_draw ti m r) = Some (pa, pp) ->
  0 <= pp /\ 0 < pa * pa + pp * pp <= 2 * m * (96 * ln 2 * ti).
Proof.
  intros ti m r pa pp T M H. assert (N : d48_next r <> 0%Z /\ d48_next (d48_next r) <> 0%Z).
  { split; intros Z; (assert (X : fst (thermal_draw ti m r) = None) by (apply draw_infinite; tauto)); congruence. }
  destruct N as [N1 N2]. unfold thermal_draw in H. cbv zeta in H. cbn [fst] in H.
  destruct (Req_EM_T _ 0) as [A|A]; [discriminate|]. destruct (Req_EM_T _ 0) as [B|B]; [discriminate|]. apply (f_equal (fun o => match o with Some q => q | None => (pa, pp) end)) in H. cbv beta iota in H.
  pose proof (uni_low r N1) as [U1 V1]. pose proof (uni_low _ N2) as [U2 V2]. pose proof (uni_ln r N1) as L1. pose proof (uni_ln _ N2) as L2.
  assert (P : 0 < / 2 ^ 48) by (apply Rinv_0_lt_compat; apply pow_lt; lra).
  set (u1 := d48_uniform_of (d48_next r)) in *. set (u2 := d48_uniform_of (d48_next (d48_next r))) in *. set (u3 := d48_uniform_of (d48_next (d48_next (d48_next r)))) in *.
  pose proof (d48_range (d48_next (d48_next (d48_next r)))) as R4. set (u4 := d48_uniform_of _) in R4, H.
  destruct (thermal_spec ti m u1 u2 u3 u4) as (E0 & S2 & PP & _); try lra. cbv zeta in E0, S2, PP. rewrite H in S2, PP. cbn [fst snd] in S2, PP. split; [exact PP|]. rewrite S2.
  clear S2 PP H. pose proof (COS_bound (u3 * PI / 2)) as C. set (c := cos _) in *. clearbody c u1 u2. assert (CC : 0 <= c * c <= 1) by nra. set (d := c * c) in *. clearbody d.
  assert (G : 0 < - (ln u1 + ln u2 * d) <= 96 * ln 2) by nra. set (g := - (ln u1 + ln u2 * d)) in *. replace (- ti * (ln u1 + ln u2 * d)) with (ti * g) by (unfold g; ring). clearbody g.
  assert (0 < m * ti) by nra. nra.
Qed.

(** the loop: sample [i] starts after 4 i draws *)
Lemma draw_state : forall ti m r, snd (thermal_draw ti m r) = d48_iter 4 r.
Proof. reflexivity. Qed.
Lemma loop_nth : forall ti m n i r, (i < n)%nat -> nth_error (fst (thermal_loop ti m n r)) i = Some (fst (thermal_draw ti m (d48_iter (4 * i) r))).
Proof.
  intros ti m. induction n as [|n IH]; intros i r L; [lia|]. cbn [thermal_loop]. pose proof (draw_state ti m r) as D. destruct (thermal_draw ti m r) as [p st] eqn:E. cbn [snd] in D.
  pose proof (fun i => IH i st) as K. destruct (thermal_loop ti m n st) as [rest st']. cbn [fst] in *. destruct i as [|i].
  - replace (4 * 0)%nat with 0%nat by lia. change (d48_iter 0 r) with r. rewrite E. reflexivity.
  - cbn [nth_error]. rewrite K by lia. rewrite D, <- d_iter_add. replace (4 * i + 4)%nat with (4 * S i)%nat by lia. reflexivity.
Qed.
Theorem loop_length : forall ti m n r, length (fst (thermal_loop ti m n r)) = n /\ snd (thermal_loop ti m n r) = d48_iter (4 * n) r.
Proof.
  intros ti m. induction n as [|n IH]; intros r; [split; reflexivity|]. cbn [thermal_loop]. pose proof (draw_state ti m r) as D. destruct (thermal_draw ti m r) as [p st]. cbn [snd] in D.
  destruct (IH st) as [A B]. destruct (thermal_loop ti m n st) as [rest st']. cbn [fst snd length] in *. split; [now rewrite A|]. rewrite B, D, <- d_iter_add. f_equal. lia.
Qed.

(** the two lowest bits count the draws *)
Lemma iter_mod4 : forall n r, (d48_iter n r mod 4 = (r + 3 * Z.of_nat n) mod 4)%Z.
Proof.
  induction n as [|n IH]; intros r; [cbn [d48_iter]; f_equal; lia|]. cbn [d48_iter]. unfold d48_next.
  assert (D : forall x, ((x mod two48) mod 4 = x mod 4)%Z). { intros x. symmetry. apply Znumtheory.Zmod_div_mod; [lia|unfold two48; lia|]. exists (2 ^ 46)%Z. reflexivity. }
  rewrite D. unfold d48_a, d48_b. pose proof (IH r) as K. clear IH D. set (x := d48_iter n r) in *. clearbody x. rewrite Nat2Z.inj_succ. set (k := Z.of_nat n) in *. clearbody k.
  Z.div_mod_to_equations. lia.
Qed.
Lemma seed_mod4 : forall s, (srand48 s mod 4 = 2)%Z.
Proof. intros s. unfold srand48. replace ((s mod 2 ^ 32) * 2 ^ 16 + 13070)%Z with (2 + ((s mod 2 ^ 32) * 2 ^ 14 + 3267) * 4)%Z by lia. rewrite Z.mod_add by lia. reflexivity. Qed.
Lemma seed_state : forall s, (0 <= srand48 s < 2 ^ 48)%Z.
Proof. intros s. unfold srand48. pose proof (Z.mod_pos_bound s (2 ^ 32)). lia. Qed.
Lemma zero_at : forall s n, d48_iter n (srand48 s) = 0%Z -> exists i, n = (4 * i + 2)%nat.
Proof.
  intros s n H. pose proof (iter_mod4 n (srand48 s)) as K. rewrite H in K. pose proof (seed_mod4 s) as M. set (x := srand48 s) in *. clearbody x.
  assert (Q : (Z.of_nat n mod 4 = 2)%Z). { change (0 mod 4)%Z with 0%Z in K. Z.div_mod_to_equations. lia. }
  exists (Z.to_nat (Z.of_nat n / 4)). pose proof (Z.div_mod (Z.of_nat n) 4). lia.
Qed.
(** after seeding, the first logarithm is always finite *)
Theorem first_log : forall s i, 0 < d48_uniform_of (d48_iter (4 * i + 1) (srand48 s)) < 1.
Proof.
  intros s i. replace (4 * i + 1)%nat with (S (4 * i)) by lia. cbn [d48_iter]. destruct (d48_range (d48_iter (4 * i) (srand48 s))) as [[A|A] B]; [lra|]. exfalso. symmetry in A. apply uni_zero in A.
  change (d48_iter (S (4 * i)) (srand48 s) = 0%Z) in A. apply zero_at in A. destruct A as [j J]. lia.
Qed.
(** but in each period of 2^46 samples exactly one has an infinite energy *)
Theorem one_infinite : forall ti m s, exists i, (Z.of_nat i < 2 ^ 46)%Z /\ forall n, (i < n)%nat ->
  nth_error (fst (thermal_loop ti m n (srand48 s))) i = Some None /\
  forall j, (j < n)%nat -> (Z.of_nat j < 2 ^ 46)%Z -> j <> i -> exists p, nth_error (fst (thermal_loop ti m n (srand48 s))) j = Some (Some p).
Proof.
  intros ti m s. destruct (d48_visits (srand48 s) 0 (seed_state s)) as (k & K & Z0); [lia|]. destruct (zero_at s _ Z0) as [i I]. exists i.
  assert (KI : k = (4 * Z.of_nat i + 2)%Z) by lia. split; [lia|]. intros n L. split.
  - rewrite loop_nth by exact L. f_equal. apply draw_infinite. right. change (d48_iter (2 + 4 * i) (srand48 s) = 0%Z). rewrite <- Z0, I. f_equal. lia.
  - intros j J B N. rewrite loop_nth by exact J. destruct (fst (thermal_draw ti m (d48_iter (4 * j) (srand48 s)))) as [p|] eqn:E; [now exists p|]. exfalso. apply draw_infinite in E.
    destruct E as [E|E].
    + change (d48_iter (1 + 4 * j) (srand48 s) = 0%Z) in E. apply zero_at in E. destruct E as [q Q]. lia.
    + change (d48_iter (2 + 4 * j) (srand48 s) = 0%Z) in E. rewrite <- Z0, I in E. apply d_iter_inj in E; [lia|exact (seed_state s)|unfold two48; lia|unfold two48; lia].
Qed.

(** many draws at once *)
Fixpoint jump (p : positive) : Z * Z :=
  match p with
  | xH => (d48_a, d48_b)
  | xO p => let (A, B) := jump p in ((A * A) mod two48, (A * B + B) mod two48)%Z
  | xI p => let (A, B) := jump p in ((d48_a * (A * A)) mod two48, (d48_a * (A * B + B) + d48_b) mod two48)%Z
  end.
Lemma jump_ok : forall p r, exists k, (d48_iter (Pos.to_nat p) r = fst (jump p) * r + snd (jump p) + k * two48)%Z.
Proof.
  assert (N : forall r, exists k, (d48_next r = d48_a * r + d48_b + k * two48)%Z).
  { intros r. exists (- ((d48_a * r + d48_b) / two48))%Z. unfold d48_next. rewrite Z.mod_eq by (unfold two48; lia). ring. }
  assert (W : forall x, exists q, (x mod two48 = x + q * two48)%Z). { intros x. exists (- (x / two48))%Z. rewrite Z.mod_eq by (unfold two48; lia). ring. }
  induction p as [p IH|p IH|]; intros r; cbn [jump]; [| |exact (N r)].
  - rewrite Pos2Nat.inj_xI. cbn [d48_iter]. replace (2 * Pos.to_nat p)%nat with (Pos.to_nat p + Pos.to_nat p)%nat by lia. rewrite d_iter_add. destruct (IH r) as [k K]. destruct (IH (d48_iter (Pos.to_nat p) r)) as [l L].
    rewrite K in L at 2. destruct (N (d48_iter (Pos.to_nat p) (d48_iter (Pos.to_nat p) r))) as [j J]. rewrite J, L. destruct (jump p) as [A B]. cbn [fst snd].
    destruct (W (d48_a * (A * A))%Z) as [q ->]. destruct (W (d48_a * (A * B + B) + d48_b)%Z) as [q' ->]. exists (d48_a * (A * k + l) + j - q * r - q')%Z. ring.
  - rewrite Pos2Nat.inj_xO. replace (2 * Pos.to_nat p)%nat with (Pos.to_nat p + Pos.to_nat p)%nat by lia. rewrite d_iter_add. destruct (IH r) as [k K]. destruct (IH (d48_iter (Pos.to_nat p) r)) as [l L].
    rewrite K in L at 2. rewrite L. destruct (jump p) as [A B]. cbn [fst snd]. destruct (W (A * A)%Z) as [q ->]. destruct (W (A * B + B)%Z) as [q' ->]. exists (A * k + l - q * r - q')%Z. ring.
Qed.
Lemma jump_zero : forall p r, (0 <= r < 2 ^ 48)%Z -> ((fst (jump p) * r + snd (jump p)) mod two48 = 0)%Z -> d48_iter (Pos.to_nat p) r = 0%Z.
Proof.
  intros p r H Q. destruct (jump_ok p r) as [k K]. destruct (d_iter_state (Pos.to_nat p) r H) as [A B]. rewrite <- (Z.mod_small _ two48 (conj A B)), K, Z.mod_add by (unfold two48; lia). exact Q.
Qed.
(** and a single call of AFSI can meet the zero: with the seed of a certain second, sample 224850 *)
Theorem infinite_in_call : forall ti m n i, Z.of_nat i = 224850%Z -> (i < n)%nat -> nth_error (fst (thermal_loop ti m n (srand48 1927875824))) i = Some None.
Proof.
  intros ti m n i I L. rewrite loop_nth by exact L. f_equal. apply draw_infinite. right. change (d48_iter (2 + 4 * i) (srand48 1927875824) = 0%Z).
  replace (2 + 4 * i)%nat with (Pos.to_nat 899402) by lia. apply jump_zero; [apply seed_state|]. vm_compute. reflexivity.
Qed.

(** math.c *)
Theorem rand_ends : forall r, (0 <= r < 2 ^ 48)%Z -> exists fuel x k, x * x <= 188 * ln 2 /\
  (forall f, (fuel <= f)%nat -> normal_rand f r = Some (x, d48_iter (2 * k) r)) /\
  (forall f, (fuel <= f)%nat -> normal_simd d48_next d48_uniform_of f 1 r = Some ([(0%nat, x)], d48_iter (2 * k) r)).
Proof.
  intros r H. destruct (d48_normal 1 r H) as (fuel & out & k & RN & IX & BD & _). exists fuel.
  assert (Q : forall f, (fuel <= f)%nat -> exists x, normal_rand f r = Some (x, d48_iter (2 * k) r) /\ out = [(0%nat, x)]).
  { intros f F. pose proof (RN f F) as E. unfold normal_simd in E. cbn [normal_run Nat.ltb Nat.leb] in E. unfold normal_rand. destruct (polar d48_next d48_uniform_of f r) as [[[x1 x2] st]|]; [|discriminate].
    cbn in E. injection E as E1 E2. exists (x1 * sqrt (-2 * ln (x1 * x1 + x2 * x2) / (x1 * x1 + x2 * x2))). split; [|now rewrite <- E1]. cbv zeta. do 2 f_equal. rewrite iter_d48. exact E2. }
  destruct (Q fuel (le_n _)) as (x & X & O). exists x, k. split; [apply (BD 0%nat); rewrite O; now left|]. split.
  - intros f F. destruct (Q f F) as (x' & X' & O'). rewrite O in O'. injection O' as O'. now rewrite O'.
  - intros f F. rewrite (RN f F), O. now rewrite iter_d48.
Qed.

(** ** Whole runs *)
(** samples [l] were drawn from the stream of [r] between draw 4 a and draw 4 b, each from its own four numbers *)
Inductive drawn (r : Z) : nat -> nat -> list (option (R * R)) -> Prop :=
| drawn_end : forall a b, (a <= b)%nat -> drawn r a b []
| drawn_next : forall a k b o l, (a <= k)%nat -> (k < b)%nat -> (o = None <-> d48_iter (4 * k + 1) r = 0%Z \/ d48_iter (4 * k + 2) r = 0%Z) -> drawn r (S k) b l -> drawn r a b (o :: l).
Lemma drawn_le : forall r a b l, drawn r a b l -> (a <= b)%nat.
Proof. intros r a b l H. induction H; lia. Qed.
Lemma drawn_weaken : forall r a b l, drawn r a b l -> forall a' b', (a' <= a)%nat -> (b <= b')%nat -> drawn r a' b' l.
Proof. intros r a b l H. induction H as [a b L|a k b o l A B O D IH]; intros a' b' A' B'; [constructor; lia|]. apply drawn_next with k; [lia|lia|exact O|]. apply IH; lia. Qed.
Lemma drawn_app : forall r a b l, drawn r a b l -> forall c l', drawn r b c l' -> drawn r a c (l ++ l').
Proof.
  intros r a b l H. induction H as [a b L|a k b o l A B O D IH]; intros c l' D'; cbn [app].
  - apply drawn_weaken with b c; [exact D'|exact L|lia].
  - pose proof (drawn_le _ _ _ _ D'). apply drawn_next with k; [exact A|lia|exact O|]. now apply IH.
Qed.
Lemma loop_drawn : forall ti m r n a, drawn r a (a + n) (fst (thermal_loop ti m n (d48_iter (4 * a) r))).
Proof.
  intros ti m r. induction n as [|n IH]; intros a; [constructor; lia|]. cbn [thermal_loop]. pose proof (draw_infinite ti m (d48_iter (4 * a) r)) as O. pose proof (draw_state ti m (d48_iter (4 * a) r)) as S.
  destruct (thermal_draw ti m (d48_iter (4 * a) r)) as [p st]. cbn [fst snd] in O, S. rewrite <- d_iter_add in S. replace (4 + 4 * a)%nat with (4 * Datatypes.S a)%nat in S by lia. subst st.
  pose proof (IH (Datatypes.S a)) as D. destruct (thermal_loop ti m n _) as [rest st']. cbn [fst] in *. apply drawn_next with a; [lia|lia| |].
  - rewrite O. replace (4 * a + 1)%nat with (1 + 4 * a)%nat by lia. replace (4 * a + 2)%nat with (2 + 4 * a)%nat by lia. reflexivity.
  - replace (a + Datatypes.S n)%nat with (Datatypes.S a + n)%nat by lia. exact D.
Qed.
Lemma products_draws : forall n r, products_state n r = d48_iter (4 * n) r.
Proof.
  induction n as [|n IH]; intros r; [reflexivity|]. replace (4 * S n)%nat with (4 + 4 * n)%nat by lia. rewrite d_iter_add, <- IH. reflexivity.
Qed.
Lemma reactant_drawn : forall n m pl r a, exists k, (k <= n)%nat /\ drawn r a (a + k) (fst (snd (thermal_reactant n m pl (d48_iter (4 * a) r)))) /\
  snd (snd (thermal_reactant n m pl (d48_iter (4 * a) r))) = d48_iter (4 * (a + k)) r.
Proof.
  intros n m [[ni ti]|] r a; cbn [thermal_reactant fst snd].
  - exists n. split; [lia|]. split; [apply loop_drawn|]. rewrite (proj2 (loop_length ti m n _)), <- d_iter_add. f_equal. lia.
  - exists 0%nat. split; [lia|]. split; [constructor; lia|]. f_equal. lia.
Qed.
Lemma cell_drawn : forall n m1 m2 c r a, exists k, (k <= 3 * n)%nat /\ drawn r a (a + k) (fst (thermal_cell n m1 m2 c (d48_iter (4 * a) r))) /\
  snd (thermal_cell n m1 m2 c (d48_iter (4 * a) r)) = d48_iter (4 * (a + k)) r.
Proof.
  intros n m1 m2 [[p1 p2]|] r a; cbn [thermal_cell].
  - destruct (reactant_drawn n m1 p1 r a) as (k1 & K1 & D1 & S1). destruct (thermal_reactant n m1 p1 _) as [d1 [s1 st1]]. cbn [fst snd] in D1, S1. subst st1.
    destruct (reactant_drawn n m2 p2 r (a + k1)) as (k2 & K2 & D2 & S2). destruct (thermal_reactant n m2 p2 _) as [d2 [s2 st2]]. cbn [fst snd] in D2, S2. subst st2.
    pose proof (drawn_app _ _ _ _ D1 _ _ D2) as D. cbn [fst snd].
    assert (Q : forall k3, (k3 <= n)%nat -> exists k, (k <= 3 * n)%nat /\ drawn r a (a + k) (s1 ++ s2) /\ d48_iter (4 * (a + k1 + k2 + k3)) r = d48_iter (4 * (a + k)) r).
    { intros k3 K3. exists (k1 + k2 + k3)%nat. split; [lia|]. split; [apply drawn_weaken with a (a + k1 + k2)%nat; [exact D|lia|lia]|f_equal; lia]. }
    destruct (Req_EM_T d1 0); [|destruct (Req_EM_T d2 0)].
    1,2: destruct (Q 0%nat) as (k & A & B & C); [lia|]; exists k; split; [exact A|]; split; [exact B|]; rewrite <- C; f_equal; lia.
    destruct (Q n) as (k & A & B & C); [lia|]. exists k. split; [exact A|]. split; [exact B|]. rewrite <- C, products_draws, <- d_iter_add. f_equal. lia.
  - exists 0%nat. split; [lia|]. split; [constructor; lia|]. cbn [snd]. f_equal. lia.
Qed.
Lemma run_drawn : forall n m1 m2 r cells a, exists k, (k <= 3 * n * length cells)%nat /\ drawn r a (a + k) (fst (thermal_run n m1 m2 cells (d48_iter (4 * a) r))) /\
  snd (thermal_run n m1 m2 cells (d48_iter (4 * a) r)) = d48_iter (4 * (a + k)) r.
Proof.
  intros n m1 m2 r. induction cells as [|c cells IH]; intros a; cbn [thermal_run length].
  - exists 0%nat. split; [lia|]. split; [constructor; lia|]. cbn [snd]. f_equal. lia.
  - destruct (cell_drawn n m1 m2 c r a) as (k1 & K1 & D1 & S1). destruct (thermal_cell n m1 m2 c _) as [s st]. cbn [fst snd] in D1, S1. subst st.
    destruct (IH (a + k1)%nat) as (k2 & K2 & D2 & S2). destruct (thermal_run n m1 m2 cells _) as [rest st]. cbn [fst snd] in *. exists (k1 + k2)%nat. split; [nia|].
    split; [replace (a + (k1 + k2))%nat with (a + k1 + k2)%nat by lia; exact (drawn_app _ _ _ _ D1 _ _ D2)|]. rewrite S2. f_equal. lia.
Qed.
Definition infinite (l : list (option (R * R))) : nat := length (filter (fun o => match o with None => true | Some _ => false end) l).
Lemma none_after : forall s a b l, drawn (srand48 s) a b l -> (4 * Z.of_nat b <= 2 ^ 48)%Z -> forall i, (i < a)%nat -> d48_iter (4 * i + 2) (srand48 s) = 0%Z -> infinite l = 0%nat.
Proof.
  intros s a b l H. induction H as [a b L|a k b o l A B O D IH]; intros Q i I E; [reflexivity|]. unfold infinite in *. cbn [filter]. destruct o as [p|]; [apply IH with i; [exact Q|lia|exact E]|].
  exfalso. destruct (proj1 O eq_refl) as [F|F]; [apply zero_at in F; destruct F as [j J]; lia|]. rewrite <- F in E. apply d_iter_inj in E; [lia|exact (seed_state s)|unfold two48; lia|unfold two48; lia].
Qed.
Lemma one_drawn : forall s a b l, drawn (srand48 s) a b l -> (4 * Z.of_nat b <= 2 ^ 48)%Z -> (infinite l <= 1)%nat.
Proof.
  intros s a b l D. induction D as [a b L|a k b o l A B O D IH]; intros Q; [cbn; lia|]. unfold infinite in *. cbn [filter]. destruct o as [p|]; [now apply IH|]. cbn [length].
  destruct (proj1 O eq_refl) as [F|F]; [apply zero_at in F; destruct F as [j J]; lia|]. pose proof (none_after s _ _ _ D Q k (Nat.lt_succ_diag_r k) F) as N. unfold infinite in N. rewrite N. lia.
Qed.
(** at most one sample of a whole run is infinite *)
Theorem run_one : forall n m1 m2 cells s, (12 * Z.of_nat n * Z.of_nat (length cells) <= 2 ^ 48)%Z -> (infinite (fst (thermal_run n m1 m2 cells (srand48 s))) <= 1)%nat.
Proof.
  intros n m1 m2 cells s Q. destruct (run_drawn n m1 m2 (srand48 s) cells 0) as (k & K & D & _). change (d48_iter (4 * 0) (srand48 s)) with (srand48 s) in D. apply (one_drawn _ _ _ _ D). nia.
Qed.
(** each sample of the run comes from four numbers of its own, in order, after a multiple of four draws *)
Theorem run_blocks : forall n m1 m2 cells s, exists k, (k <= 3 * n * length cells)%nat /\ drawn (srand48 s) 0 k (fst (thermal_run n m1 m2 cells (srand48 s))) /\
  snd (thermal_run n m1 m2 cells (srand48 s)) = d48_iter (4 * k) (srand48 s).
Proof. intros n m1 m2 cells s. exact (run_drawn n m1 m2 (srand48 s) cells 0). Qed.
