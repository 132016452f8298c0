From Coq Require Import Reals ZArith List Bool Lia Lra Psatz.
From Verif Require Import Deriv Vec Math2Model.
Import ListNotations.
Local Open Scope R_scope.

(** ** Simpson *)
(** polynomial of degree at most five with coefficients c, and an
    antiderivative *)
Definition poly5 (c : nat -> R) (x : R) : R :=
  c 0%nat + c 1%nat * x + c 2%nat * x ^ 2 + c 3%nat * x ^ 3 + c 4%nat * x ^ 4 + c 5%nat * x ^ 5.
Definition anti5 (c : nat -> R) (x : R) : R :=
  c 0%nat * x + c 1%nat * x ^ 2 / 2 + c 2%nat * x ^ 3 / 3 + c 3%nat * x ^ 4 / 4 + c 4%nat * x ^ 5 / 5 + c 5%nat * x ^ 6 / 6.

Lemma boole5 : forall c a b,
  let m := (a + b) / 2 in let h := b - a in
  let S := h / 6 * (poly5 c a + 4 * poly5 c m + poly5 c b) in
  let S2 := h / 12 * (poly5 c a + 4 * poly5 c ((a + m) / 2) + poly5 c m)
          + h / 12 * (poly5 c m + 4 * poly5 c ((m + b) / 2) + poly5 c b) in
  S2 + (S2 - S) / 15 = anti5 c b - anti5 c a.
Proof. intros. subst m h S S2. unfold poly5, anti5. field. Qed.

Lemma helper_exact : forall c eps n a b,
  let m := (a + b) / 2 in
  fst (simpson_helper (poly5 c) a b eps ((b - a) / 6 * (poly5 c a + 4 * poly5 c m + poly5 c b))
                      (poly5 c a) (poly5 c b) (poly5 c m) n) = anti5 c b - anti5 c a.
Proof.
  intros c eps n. induction n; intros a b m.
  - cbn [simpson_helper fst]. apply boole5.
  - cbn [simpson_helper]. fold m. destruct (Rle_dec _ _); [cbn [fst]; apply boole5|].
    specialize (IHn a m) as L. specialize (IHn m b) as R. cbv zeta in L, R.
    replace ((m - a) / 6) with ((b - a) / 12) in L by (unfold m; field).
    replace ((b - m) / 6) with ((b - a) / 12) in R by (unfold m; field).
    destruct (simpson_helper _ a m _ _ _ _ _ n) as [l tl]. destruct (simpson_helper _ m b _ _ _ _ _ n) as [r tr].
    cbn [fst] in *. rewrite L, R. ring.
Qed.

Lemma anti5_deriv : forall c x, Dx (anti5 c) x (poly5 c x).
Proof.
  intros c x. unfold anti5, poly5.
  apply (d_ext (fun x => c 0%nat * x + c 1%nat / 2 * x ^ 2 + c 2%nat / 3 * x ^ 3 + c 3%nat / 4 * x ^ 4 + c 4%nat / 5 * x ^ 5 + c 5%nat / 6 * x ^ 6)).
  - intros t. field.
  - der. cbn [INR pred pow]. field.
Qed.

(** two antiderivatives have the same increments *)
Lemma anti_same : forall F G f, (forall x, Dx F x (f x)) -> (forall x, Dx G x (f x)) ->
  forall a b, F b - F a = G b - G a.
Proof.
  intros F G f HF HG.
  set (H := fun x => F x - G x).
  assert (D : forall x, Dx H x 0).
  { intros x. replace 0 with (f x - f x) by ring. apply d_minus; auto. }
  assert (pr : derivable H) by (intros x; exists 0; apply D).
  assert (Z : forall x, derive_pt H x (pr x) = 0) by (intros x; apply derive_pt_eq_0; apply D).
  pose proof (null_derivative_1 H pr Z) as K. unfold constant in K.
  intros a b. specialize (K a b). unfold H in K. lra.
Qed.

Lemma simpson_exact : forall c F a b eps, (forall x, Dx F x (poly5 c x)) ->
  fst (simpson (poly5 c) a b eps) = F b - F a.
Proof.
  intros c F a b eps H. rewrite (anti_same F (anti5 c) (poly5 c)); auto using anti5_deriv.
  unfold simpson. pose proof (helper_exact c eps max_depth a b) as E. cbv zeta in E.
  destruct (simpson_helper _ _ _ _ _ _ _ _ _) as [v t]. exact E.
Qed.

Lemma helper_evals : forall f eps n a b S fa fb fc,
  (length (snd (simpson_helper f a b eps S fa fb fc n)) + 2 <= 2 * 2 ^ (n + 1))%nat.
Proof.
  intros f eps n. induction n; intros a b s fa fb fc; cbn [simpson_helper]; [cbn; lia|].
  destruct (Rle_dec _ _).
  - cbn [snd length]. assert (1 <= 2 ^ n)%nat by (apply Nat.neq_0_lt_0, Nat.pow_nonzero; lia). rewrite Nat.add_1_r, Nat.pow_succ_r'. cbn [Nat.pow] in *. lia.
  - set (m := (a + b) / 2).
    match goal with |- context [simpson_helper f a m eps ?s ?p ?q ?r n] => specialize (IHn a m s p q r) as L; destruct (simpson_helper f a m eps s p q r n) as [l tl] end.
    match goal with |- context [simpson_helper f m b eps ?s ?p ?q ?r n] => specialize (IHn m b s p q r) as R; destruct (simpson_helper f m b eps s p q r n) as [rr tr] end.
    cbn [snd length] in *. rewrite app_length. replace (S n + 1)%nat with (S (n + 1)) by lia. rewrite Nat.pow_succ_r'. lia.
Qed.
Lemma simpson_evals : forall f a b eps, (length (snd (simpson f a b eps)) <= 2 ^ 22 + 1)%nat.
Proof.
  intros. unfold simpson.
  match goal with |- context [simpson_helper f a b eps ?s ?p ?q ?r max_depth] => pose proof (helper_evals f eps max_depth a b s p q r) as L; destruct (simpson_helper f a b eps s p q r max_depth) as [l tl] end.
  cbn [snd length] in *. unfold max_depth in L. change (20 + 1)%nat with 21%nat in L.
  rewrite (Nat.pow_succ_r' 2 21). set (N := (2 ^ 21)%nat) in *. clearbody N. lia.
Qed.

Lemma helper_inside : forall f eps n a b S fa fb fc, a <= b ->
  forall x, In x (snd (simpson_helper f a b eps S fa fb fc n)) -> a <= x <= b.
Proof.
  intros f eps n. induction n; intros a b s fa fb fc H x; cbn [simpson_helper].
  - cbn. intros [<-|[<-|[]]]; lra.
  - destruct (Rle_dec _ _); [cbn; intros [<-|[<-|[]]]; lra|].
    set (m := (a + b) / 2). assert (a <= m <= b) by (unfold m; lra).
    match goal with |- context [simpson_helper f a m eps ?s ?p ?q ?r n] => specialize (IHn a m s p q r) as L; destruct (simpson_helper f a m eps s p q r n) as [l tl] end.
    match goal with |- context [simpson_helper f m b eps ?s ?p ?q ?r n] => specialize (IHn m b s p q r) as R; destruct (simpson_helper f m b eps s p q r n) as [rr tr] end.
    cbn [snd] in *. intros [<-|[<-|K]]; [lra|lra|]. apply in_app_or in K. destruct K as [K|K].
    + apply L in K; lra.
    + apply R in K; lra.
Qed.
Lemma simpson_inside : forall f a b eps, a <= b -> forall x, In x (snd (simpson f a b eps)) -> a <= x <= b.
Proof.
  intros f a b eps H x. unfold simpson.
  match goal with |- context [simpson_helper f a b eps ?s ?p ?q ?r max_depth] => pose proof (helper_inside f eps max_depth a b s p q r H) as L; destruct (simpson_helper f a b eps s p q r max_depth) as [l tl] end.
  cbn [snd] in *. intros [<-|[<-|[<-|K]]]; try lra. auto.
Qed.

(** scaling the integrand scales the result and leaves the refinement alone *)
Lemma helper_scale : forall k f eps n a b S fa fb fc, k <> 0 ->
  simpson_helper (fun x => k * f x) a b eps (k * S) (k * fa) (k * fb) (k * fc) n =
  (k * fst (simpson_helper f a b eps S fa fb fc n), snd (simpson_helper f a b eps S fa fb fc n)).
Proof.
  intros k f eps n. induction n; intros a b s fa fb fc Hk; cbn [simpson_helper].
  - cbn [fst snd]. apply f_equal2; auto. field.
  - set (m := (a + b) / 2).
    set (Sl := (b - a) / 12 * (fa + 4 * f ((a + m) / 2) + fc)).
    set (Sr := (b - a) / 12 * (fc + 4 * f ((m + b) / 2) + fb)).
    replace ((b - a) / 12 * (k * fa + 4 * (k * f ((a + m) / 2)) + k * fc)) with (k * Sl) by (unfold Sl; ring).
    replace ((b - a) / 12 * (k * fc + 4 * (k * f ((m + b) / 2)) + k * fb)) with (k * Sr) by (unfold Sr; ring).
    rewrite !(IHn _ _ _ _ _ _ Hk).
    assert (P : 0 < Rabs k) by now apply Rabs_pos_lt.
    replace (k * Sl + k * Sr - k * s) with (k * (Sl + Sr - s)) by ring. rewrite !Rabs_mult.
    destruct (Rle_dec (Rabs k * Rabs (Sl + Sr - s)) (eps * (Rabs k * Rabs s))) as [L|L];
    destruct (Rle_dec (Rabs (Sl + Sr - s)) (eps * Rabs s)) as [Q|Q].
    + cbn [fst snd]. apply f_equal2; auto. field.
    + exfalso. apply Q. apply Rmult_le_reg_l with (Rabs k); lra.
    + exfalso. apply L. replace (eps * (Rabs k * Rabs s)) with (Rabs k * (eps * Rabs s)) by ring. apply Rmult_le_compat_l; lra.
    + destruct (simpson_helper f a m eps Sl _ _ _ n). destruct (simpson_helper f m b eps Sr _ _ _ n). cbn [fst snd].
      apply f_equal2; auto. ring.
Qed.
Lemma simpson_scale : forall k f a b eps, k <> 0 ->
  simpson (fun x => k * f x) a b eps = (k * fst (simpson f a b eps), snd (simpson f a b eps)).
Proof.
  intros k f a b eps Hk. unfold simpson.
  set (S := (b - a) / 6 * (f a + 4 * f ((a + b) / 2) + f b)).
  replace ((b - a) / 6 * (k * f a + 4 * (k * f ((a + b) / 2)) + k * f b)) with (k * S) by (unfold S; ring).
  rewrite helper_scale by auto. destruct (simpson_helper f a b eps S _ _ _ max_depth). reflexivity.
Qed.
(** swapping the limits changes the sign *)
Lemma helper_swap : forall f eps n a b S fa fb fc,
  fst (simpson_helper f b a eps (- S) fb fa fc n) = - fst (simpson_helper f a b eps S fa fb fc n).
Proof.
  intros f eps n. induction n; intros a b s fa fb fc; cbn [simpson_helper]; rewrite (Rplus_comm b a);
  set (m := (a + b) / 2); rewrite (Rplus_comm b m), (Rplus_comm m a).
  - cbn [fst]. field.
  - set (Sl := (b - a) / 12 * (fa + 4 * f ((a + m) / 2) + fc)).
    set (Sr := (b - a) / 12 * (fc + 4 * f ((m + b) / 2) + fb)).
    replace ((a - b) / 12 * (fb + 4 * f ((m + b) / 2) + fc)) with (- Sr) by (unfold Sr; field).
    replace ((a - b) / 12 * (fc + 4 * f ((a + m) / 2) + fa)) with (- Sl) by (unfold Sl; field).
    replace (- Sr + - Sl - - s) with (- (Sl + Sr - s)) by ring. rewrite !Rabs_Ropp.
    destruct (Rle_dec _ _); [cbn [fst]; field|].
    pose proof (IHn a m Sl fa fc (f ((a + m) / 2))) as L. pose proof (IHn m b Sr fc fb (f ((m + b) / 2))) as R.
    destruct (simpson_helper f m a _ _ _ _ _ n), (simpson_helper f b m _ _ _ _ _ n),
             (simpson_helper f a m _ _ _ _ _ n), (simpson_helper f m b _ _ _ _ _ n). cbn [fst] in *. lra.
Qed.
Lemma simpson_swap : forall f a b eps, fst (simpson f b a eps) = - fst (simpson f a b eps).
Proof.
  intros f a b eps. unfold simpson. rewrite (Rplus_comm b a).
  set (S := (b - a) / 6 * (f a + 4 * f ((a + b) / 2) + f b)).
  replace ((a - b) / 6 * (f b + 4 * f ((a + b) / 2) + f a)) with (- S) by (unfold S; field).
  pose proof (helper_swap f eps max_depth a b S (f a) (f b) (f ((a + b) / 2))) as H.
  destruct (simpson_helper f b a _ _ _ _ _ _), (simpson_helper f a b _ _ _ _ _ _). exact H.
Qed.

(** acceptance of the first estimate *)
Lemma helper_accept : forall f a b eps S fa fb fc n,
  let c := (a + b) / 2 in let h := b - a in
  let S2 := h / 12 * (fa + 4 * f ((a + c) / 2) + fc) + h / 12 * (fc + 4 * f ((c + b) / 2) + fb) in
  Rabs (S2 - S) <= eps * Rabs S -> fst (simpson_helper f a b eps S fa fb fc n) = S2 + (S2 - S) / 15.
Proof.
  intros f a b eps S fa fb fc n c h S2 L. destruct n; [reflexivity|]. cbn [simpson_helper]. fold c h S2.
  destruct (Rle_dec (Rabs (S2 - S)) (eps * Rabs S)); [reflexivity | contradiction].
Qed.
Lemma simpson_fst : forall f a b eps, fst (simpson f a b eps) =
  fst (simpson_helper f a b eps ((b - a) / 6 * (f a + 4 * f ((a + b) / 2) + f b)) (f a) (f b) (f ((a + b) / 2)) max_depth).
Proof.
  intros. unfold simpson. generalize max_depth. intros n. destruct (simpson_helper _ _ _ _ _ _ _ _ _). reflexivity.
Qed.
Lemma simpson_accept : forall f a b eps,
  let c := (a + b) / 2 in let h := b - a in
  let S := h / 6 * (f a + 4 * f c + f b) in
  let S2 := h / 12 * (f a + 4 * f ((a + c) / 2) + f c) + h / 12 * (f c + 4 * f ((c + b) / 2) + f b) in
  Rabs (S2 - S) <= eps * Rabs S -> fst (simpson f a b eps) = S2 + (S2 - S) / 15.
Proof.
  intros f a b eps c h S S2 L. rewrite simpson_fst. generalize max_depth. intros n. apply helper_accept. exact L.
Qed.

(** ** Matrix product *)
Lemma upd_same : forall A (a : nat -> A) i v, upd a i v i = v.
Proof. intros. unfold upd. now rewrite Nat.eqb_refl. Qed.
Lemma upd_other : forall A (a : nat -> A) i j v, j <> i -> upd a i v j = a j.
Proof. intros. unfold upd. destruct (Nat.eqb_spec j i); congruence. Qed.

Lemma mat_row_in : forall A B d1 d2 d3 i n C j, (j < n)%nat ->
  mat_row A B d1 d2 d3 i n C (i * d3 + j) = sumn d2 (fun k => A (k * d1 + i)%nat * B (j * d2 + k)%nat).
Proof.
  intros A B d1 d2 d3 i n C j. induction n; intros H; [lia|]. cbn [mat_row].
  destruct (Nat.eq_dec j n) as [->|]; [apply upd_same|]. rewrite upd_other by lia. apply IHn. lia.
Qed.
Lemma mat_row_out : forall A B d1 d2 d3 i n C x, (x < i * d3 \/ i * d3 + n <= x)%nat ->
  mat_row A B d1 d2 d3 i n C x = C x.
Proof.
  intros A B d1 d2 d3 i n C x. induction n; intros H; auto. cbn [mat_row]. rewrite upd_other by lia. apply IHn. lia.
Qed.
Lemma mat_rows_spec : forall A B d1 d2 d3 n C,
  (forall i j, (i < n)%nat -> (j < d3)%nat ->
    mat_rows A B d1 d2 d3 n C (i * d3 + j) = sumn d2 (fun k => A (k * d1 + i)%nat * B (j * d2 + k)%nat)) /\
  (forall x, (n * d3 <= x)%nat -> mat_rows A B d1 d2 d3 n C x = C x).
Proof.
  intros A B d1 d2 d3 n C. induction n; split; intros.
  - lia.
  - reflexivity.
  - cbn [mat_rows]. destruct IHn as [I1 I2]. destruct (Nat.eq_dec i n) as [->|].
    + now apply mat_row_in.
    + rewrite mat_row_out; [apply I1; lia|]. left. nia.
  - cbn [mat_rows]. destruct IHn as [I1 I2]. cbn [Nat.mul] in H. rewrite mat_row_out by lia. apply I2. lia.
Qed.

(** ** linspace *)
Lemma lin_fill_spec : forall a d n vec i, lin_fill a d n vec i = if Nat.ltb i n then a + INR i * d else vec i.
Proof.
  intros a d n vec i. induction n.
  - reflexivity.
  - cbn [lin_fill]. destruct (Nat.eq_dec i n) as [->|].
    + rewrite upd_same. destruct (Nat.ltb_spec n (S n)); auto; lia.
    + rewrite upd_other, IHn by auto. destruct (Nat.ltb_spec i n), (Nat.ltb_spec i (S n)); auto; lia.
Qed.
Lemma linspace_spec : forall vec a b n, (2 <= n)%nat ->
  linspace vec a b n 0%nat = a /\ linspace vec a b n (n - 1)%nat = b /\
  (forall i, (i + 1 < n)%nat -> linspace vec a b n (i + 1)%nat - linspace vec a b n i = (b - a) / (INR n - 1)) /\
  (forall i, (n <= i)%nat -> linspace vec a b n i = vec i).
Proof.
  intros vec a b n H. unfold linspace. destruct (Nat.eqb_spec n 1); [lia|].
  assert (N : INR n - 1 <> 0).
  { change 1 with (INR 1). rewrite <- minus_INR by lia. apply not_0_INR. lia. }
  rewrite !lin_fill_spec. repeat split; intros.
  - destruct (Nat.ltb_spec 0 n); [cbn; ring | lia].
  - destruct (Nat.ltb_spec (n - 1) n); [|lia]. rewrite minus_INR by lia. cbn [INR]. field. auto.
  - rewrite !lin_fill_spec. destruct (Nat.ltb_spec i n), (Nat.ltb_spec (i + 1) n); try lia. rewrite plus_INR. cbn [INR]. ring.
  - rewrite lin_fill_spec. destruct (Nat.ltb_spec i n); auto; lia.
Qed.
Lemma ipow_spec : forall a p, ipow a p = (a ^ Z.of_nat p)%Z.
Proof.
  intros a p. induction p; [reflexivity|]. cbn [ipow]. rewrite IHp, Nat2Z.inj_succ, Z.pow_succ_r by lia. ring.
Qed.

(** ** uniquecount *)
Definition occ (v : Z) (l : list Z) : Z := Z.of_nat (count_occ Z.eq_dec l v).
(** state after the prefix [l] *)
Definition uc_inv (N : nat) (l : list Z) (st : (nat -> Z) * (nat -> Z) * nat) : Prop :=
  let '(u, c, k) := st in
  (k <= length l)%nat /\
  (forall i, (i < k)%nat -> In (u i) l /\ c i = occ (u i) l) /\
  (forall i j, (i < k)%nat -> (j < k)%nat -> u i = u j -> i = j) /\
  (forall v, In v l -> exists i, (i < k)%nat /\ u i = v) /\
  (forall i, (k <= i < N)%nat -> u i = 0%Z /\ c i = 0%Z).

Lemma scan_spec : forall test u c m,
  (forall i j, (i < m)%nat -> (j < m)%nat -> u i = u j -> i = j) ->
  let '(isu, cnt) := uc_scan test u c m in
  (isu = true <-> forall i, (i < m)%nat -> u i <> test) /\
  (forall i, cnt i = if (Nat.ltb i m && Z.eqb test (u i))%bool then (c i + 1)%Z else c i).
Proof.
  intros test u c m. induction m; intros INJ.
  - cbn. split; [split; intros; auto; lia | auto].
  - cbn [uc_scan]. specialize (IHm ltac:(intros; apply INJ; lia)).
    destruct (uc_scan test u c m) as [isu cnt]. destruct IHm as [A B].
    destruct (Z.eqb_spec test (u m)) as [E|E].
    + split.
      * split; [discriminate|]. intros H. exfalso. apply (H m); auto.
      * intros i. destruct (Nat.eq_dec i m) as [->|].
        -- rewrite upd_same, B. destruct (Nat.ltb_spec m m); [lia|]. destruct (Nat.ltb_spec m (S m)); [|lia].
           cbn [andb]. rewrite E, Z.eqb_refl. reflexivity.
        -- rewrite upd_other, B by auto. destruct (Nat.ltb_spec i m), (Nat.ltb_spec i (S m)); auto; lia.
    + split.
      * rewrite A. split; intros H i Hi; [|apply H; lia].
        destruct (Nat.eq_dec i m) as [->|]; auto. apply H. lia.
      * intros i. rewrite B. destruct (Nat.ltb_spec i m), (Nat.ltb_spec i (S m)); auto; try lia.
        assert (i = m) by lia. subst. cbn [andb]. destruct (Z.eqb_spec test (u m)); congruence.
Qed.

Lemma occ_app : forall v l x, occ v (l ++ [x]) = (occ v l + if Z.eqb x v then 1 else 0)%Z.
Proof.
  intros v l x. unfold occ. rewrite count_occ_app. cbn [count_occ].
  destruct (Z.eq_dec x v), (Z.eqb_spec x v); try contradiction; cbn; lia.
Qed.

Lemma step_inv : forall N l x st, (length l < N)%nat -> uc_inv N l st -> uc_inv N (l ++ [x]) (uc_step x st).
Proof.
  intros N l x [[u c] k] HN (A & B & I & S & Z0). unfold uc_step.
  pose proof (scan_spec x u c k I) as SP. destruct (uc_scan x u c k) as [isu cnt]. destruct SP as [P Q].
  destruct isu.
  - assert (NEW : forall i, (i < k)%nat -> u i <> x) by (apply P; auto).
    assert (NI : ~ In x l) by (intros K; apply S in K; destruct K as (i & Hi & E); apply (NEW i Hi E)).
    unfold uc_inv. split; [rewrite app_length; cbn; lia|]. split; [|split; [|split]].
    + intros i Hi. destruct (Nat.eq_dec i k) as [->|].
      * rewrite !upd_same. split; [apply in_or_app; cbn; auto|]. rewrite occ_app, Z.eqb_refl.
        unfold occ. rewrite (proj1 (count_occ_not_In Z.eq_dec l x) NI). reflexivity.
      * rewrite !upd_other by auto. destruct (B i ltac:(lia)) as [B1 B2]. split; [apply in_or_app; auto|].
        rewrite Q, occ_app. specialize (NEW i ltac:(lia)).
        destruct (Z.eqb_spec x (u i)); [congruence|]. rewrite andb_false_r. lia.
    + intros i j Hi Hj. destruct (Nat.eq_dec i k) as [->|], (Nat.eq_dec j k) as [->|]; auto; rewrite ?upd_same, ?upd_other by auto.
      * intros E. exfalso. apply (NEW j); [lia | auto].
      * intros E. exfalso. apply (NEW i); [lia | auto].
      * apply I; lia.
    + intros v Hv. apply in_app_or in Hv. destruct Hv as [Hv|[<-|[]]].
      * destruct (S v Hv) as (i & Hi & E). exists i. split; [lia|]. rewrite upd_other by lia. auto.
      * exists k. split; [lia | apply upd_same].
    + intros i Hi. rewrite !upd_other by lia. rewrite Q. destruct (Nat.ltb_spec i k); [lia|]. cbn [andb]. apply Z0. lia.
  - assert (OLD : In x l).
    { destruct (in_dec Z.eq_dec x l) as [|NI]; auto. exfalso.
      enough (false = true) by discriminate. apply P. intros i Hi E. apply NI. rewrite <- E. apply B. auto. }
    unfold uc_inv. split; [rewrite app_length; cbn; lia|]. split; [|split; [|split]]; auto.
    + intros i Hi. destruct (B i Hi) as [B1 B2]. split; [apply in_or_app; auto|].
      rewrite Q, occ_app. destruct (Nat.ltb_spec i k); [|lia]. cbn [andb]. destruct (Z.eqb_spec x (u i)); lia.
    + intros v Hv. apply in_app_or in Hv. destruct Hv as [Hv|[<-|[]]]; auto.
    + intros i Hi. rewrite Q. destruct (Nat.ltb_spec i k); [lia|]. cbn [andb]. apply Z0. lia.
Qed.

Lemma fold_inv : forall N l2 l1 st, (length l1 + length l2 <= N)%nat -> uc_inv N l1 st ->
  uc_inv N (l1 ++ l2) (fold_left (fun st x => uc_step x st) l2 st).
Proof.
  intros N l2. induction l2 as [|x l2 IH]; intros l1 st HN H; cbn [fold_left].
  - now rewrite app_nil_r.
  - replace (l1 ++ x :: l2) with ((l1 ++ [x]) ++ l2) by (rewrite <- app_assoc; reflexivity).
    cbn [length] in HN. apply IH; [rewrite app_length; cbn; lia|]. apply step_inv; auto. lia.
Qed.

Lemma uniquecount_spec : forall inp u0 c0,
  let '(u, c) := uniquecount inp u0 c0 in
  exists k, (k <= length inp)%nat /\
    (forall i, (i < k)%nat -> In (u i) inp /\ c i = occ (u i) inp) /\
    (forall i j, (i < k)%nat -> (j < k)%nat -> u i = u j -> i = j) /\
    (forall v, In v inp -> exists i, (i < k)%nat /\ u i = v) /\
    (forall i, (k <= i < length inp)%nat -> u i = 0%Z /\ c i = 0%Z).
Proof.
  intros inp u0 c0. unfold uniquecount.
  assert (H : uc_inv (length inp) [] (uc_clear (length inp) u0, uc_clear (length inp) c0, 0%nat)).
  { unfold uc_inv. repeat split; try (intros; cbn in *; lia); try (intros v []);
    unfold uc_clear; destruct (Nat.ltb_spec i (length inp)); auto; lia. }
  apply (fold_inv (length inp) inp [] _ ltac:(cbn; lia)) in H. cbn [app] in H.
  destruct (fold_left _ _ _) as [[u c] k]. exists k. exact H.
Qed.

(** the counts add up to the length *)
Fixpoint sumZ (n : nat) (g : nat -> Z) : Z := match n with O => 0%Z | S m => (sumZ m g + g m)%Z end.

Lemma sumZ_ext : forall n f g, (forall i, (i < n)%nat -> f i = g i) -> sumZ n f = sumZ n g.
Proof. induction n; intros f g H; auto. cbn. rewrite (IHn f g), H; auto. Qed.
Lemma sumZ_zero : forall n g, (forall i, (i < n)%nat -> g i = 0%Z) -> sumZ n g = 0%Z.
Proof. induction n; intros g H; auto. cbn. rewrite IHn, H; auto. Qed.
Lemma sumZ_split : forall n k g, (k <= n)%nat -> (forall i, (k <= i < n)%nat -> g i = 0%Z) -> sumZ n g = sumZ k g.
Proof.
  induction n; intros k g H Z; [replace k with 0%nat by lia; auto|].
  destruct (Nat.eq_dec k (S n)) as [->|]; auto. cbn. rewrite (IHn k), Z by (try lia; intros; apply Z; lia). lia.
Qed.
Lemma sumZ_plus : forall n f g, sumZ n (fun i => f i + g i)%Z = (sumZ n f + sumZ n g)%Z.
Proof. induction n; intros; cbn; auto. rewrite IHn. lia. Qed.
Lemma sumZ_one : forall n (u : nat -> Z) x i0, (i0 < n)%nat -> u i0 = x ->
  (forall i, (i < n)%nat -> u i = x -> i = i0) -> sumZ n (fun i => if Z.eqb x (u i) then 1 else 0)%Z = 1%Z.
Proof.
  induction n; intros u x i0 H E U; [lia|]. cbn. destruct (Z.eqb_spec x (u n)) as [D|D].
  - rewrite sumZ_zero; [lia|]. intros i Hi. destruct (Z.eqb_spec x (u i)); auto.
    assert (i = i0) by (apply U; auto; lia). assert (n = i0) by (apply U; auto). lia.
  - assert (i0 <> n) by congruence. rewrite (IHn u x i0); auto; try lia.
Qed.
Lemma sum_occ : forall l k (u : nat -> Z), (forall i j, (i < k)%nat -> (j < k)%nat -> u i = u j -> i = j) ->
  (forall v, In v l -> exists i, (i < k)%nat /\ u i = v) ->
  sumZ k (fun i => occ (u i) l) = Z.of_nat (length l).
Proof.
  induction l as [|x l IH]; intros k u I S.
  - apply sumZ_zero. reflexivity.
  - rewrite (sumZ_ext k _ (fun i => (if Z.eqb x (u i) then 1 else 0) + occ (u i) l)%Z).
    + rewrite sumZ_plus. destruct (S x (or_introl eq_refl)) as (i0 & H0 & E0).
      rewrite (sumZ_one k u x i0); auto.
      * rewrite IH; auto; [cbn [length]; lia|]. intros v Hv. apply S. now right.
      * intros i Hi E. apply I; auto. congruence.
    + intros i Hi. unfold occ. cbn [count_occ]. destruct (Z.eq_dec x (u i)), (Z.eqb_spec x (u i)); try contradiction; lia.
Qed.
Lemma uniquecount_total : forall inp u0 c0,
  sumZ (length inp) (snd (uniquecount inp u0 c0)) = Z.of_nat (length inp).
Proof.
  intros inp u0 c0. pose proof (uniquecount_spec inp u0 c0) as H.
  destruct (uniquecount inp u0 c0) as [u c]. cbn [snd]. destruct H as (k & K & B & I & S & Z).
  rewrite (sumZ_split (length inp) k) by (auto; intros; apply Z; auto).
  rewrite (sumZ_ext k c (fun i => occ (u i) inp)) by (intros; apply B; auto).
  now apply sum_occ.
Qed.

(** ** Geometry *)
Lemma plane_zero : forall q t1 t2 t3, point_on_plane q t1 t2 t3 = 0%Z.
Proof. intros. unfold point_on_plane. repeat destruct (neqb0 _); reflexivity. Qed.

Lemma triple_unit : forall a b n, triple a b (unit n) = triple a b n / norm n.
Proof. intros. rewrite unit_scal. unfold Rdiv. vring. Qed.

Lemma bary_spec : forall AP AB AC n, triple AB AC n <> 0 ->
  (exists u, AP = vadd (vadd (vscal (fst (barycentric AP AB AC n)) AB) (vscal (snd (barycentric AP AB AC n)) AC)) (vscal u n)) /\
  (forall s t u, AP = vadd (vadd (vscal s AB) (vscal t AC)) (vscal u n) -> barycentric AP AB AC n = (s, t)).
Proof.
  intros AP AB AC n H.
  assert (N : norm n <> 0).
  { intros K. apply norm_zero in K. subst. apply H. vring. }
  assert (E : barycentric AP AB AC n = (triple AP AC n / triple AB AC n, triple AB AP n / triple AB AC n)).
  { unfold barycentric. rewrite !triple_unit. apply f_equal2; field; auto. }
  split.
  - exists (triple AB AC AP / triple AB AC n). rewrite E. cbn [fst snd].
    destruct AP as [a b c], AB as [d e f], AC as [g h i], n as [x y z]. unfold vadd, vscal, triple in *. cbn [vx vy vz] in *.
    f_equal; field; auto.
  - intros s t u ->. rewrite E.
    replace (triple (vadd (vadd (vscal s AB) (vscal t AC)) (vscal u n)) AC n) with (s * triple AB AC n) by vring.
    replace (triple AB (vadd (vadd (vscal s AB) (vscal t AC)) (vscal u n)) n) with (t * triple AB AC n) by vring.
    apply f_equal2; field; auto.
Qed.

Lemma pos_round_trip : forall p, rpz2xyz (xyz2rpz p) = p.
Proof.
  intros [x y z]. unfold rpz2xyz, xyz2rpz. cbn [vx vy vz]. destruct (atan2_spec y x) as [A B]. rewrite A, B. reflexivity.
Qed.
Lemma pos_round_trip' : forall r p z, 0 < r -> - PI < p <= PI -> xyz2rpz (rpz2xyz (V r p z)) = V r p z.
Proof.
  intros r p z Hr Hp. unfold rpz2xyz, xyz2rpz. cbn [vx vy vz]. rewrite atan2_polar by auto.
  f_equal. replace (r * cos p * (r * cos p) + r * sin p * (r * sin p)) with (Rsqr r).
  - apply sqrt_Rsqr. lra.
  - unfold Rsqr. pose proof (sin2_cos2 p) as T. unfold Rsqr in T.
    replace (r * r) with (r * r * 1) by ring. rewrite <- T. ring.
Qed.
