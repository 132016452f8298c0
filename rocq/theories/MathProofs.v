From Coq Require Import Reals ZArith List Bool Lia Lra Psatz.
From Verif Require Import Deriv MathModel.
Import ListNotations.
Local Open Scope R_scope.

(** ** Jacobians *)
(** The affine Cartesian field with value and Jacobian [J] at (x0,y0,z0). *)
Definition lin (J : nat -> R) (x0 y0 z0 : R) (c : nat) (x y z : R) : R :=
  J (4 * c)%nat + J (4 * c + 1)%nat * (x - x0) + J (4 * c + 2)%nat * (y - y0) + J (4 * c + 3)%nat * (z - z0).
(** Its cylindrical components as functions of (r,phi,z). *)
Definition cylf (J : nat -> R) (x0 y0 z0 : R) (c : nat) (r p z : R) : R :=
  let F k := lin J x0 y0 z0 k (r * cos p) (r * sin p) z in
  match c with
  | 0%nat => F 0%nat * cos p + F 1%nat * sin p
  | 1%nat => - F 0%nat * sin p + F 1%nat * cos p
  | _ => F 2%nat
  end.
(** [K] lists the values and partial derivatives of the cylindrical components
    of that field at (r,p,z). *)
Definition cyl_jac (J : nat -> R) (r p z : R) (K : nat -> R) : Prop :=
  forall c, (c < 3)%nat ->
  let G := cylf J (r * cos p) (r * sin p) z c in
  K (4 * c)%nat = G r p z /\
  Dx (fun t => G t p z) r (K (4 * c + 1)%nat) /\
  Dx (fun t => G r t z) p (K (4 * c + 2)%nat) /\
  Dx (fun t => G r p t) z (K (4 * c + 3)%nat).

Lemma cs1 : forall p, sin p * sin p + cos p * cos p = 1.
Proof. intros p. pose proof (sin2_cos2 p) as H. unfold Rsqr in H. lra. Qed.

Lemma xyz2rpz_correct : forall J r p z, cyl_jac J r p z (jac_xyz2rpz J r p).
Proof.
  intros J r p z c Hc. destruct c as [|[|[|]]]; [| | |lia]; cbn [Nat.mul Nat.add]; unfold jac_xyz2rpz, cylf, lin; cbn [Nat.mul Nat.add]; cbv beta iota zeta;
  (split; [ring | split; [der; ring | split; [der; ring | der; ring]]]).
Qed.

Lemma cyl_jac_uniq : forall J r p z K K', cyl_jac J r p z K -> cyl_jac J r p z K' ->
  forall k, (k < 12)%nat -> K k = K' k.
Proof.
  intros J r p z K K' H H' k Hk.
  pose proof (Nat.div_mod k 4 ltac:(lia)) as E. pose proof (Nat.mod_upper_bound k 4 ltac:(lia)) as M.
  assert (C : (k / 4 < 3)%nat) by (apply Nat.div_lt_upper_bound; lia).
  specialize (H (k / 4)%nat C). specialize (H' (k / 4)%nat C). cbv zeta in H, H'.
  destruct H as (A0 & A1 & A2 & A3). destruct H' as (B0 & B1 & B2 & B3).
  rewrite E. destruct (k mod 4)%nat as [|[|[|[|]]]]; try lia.
  - rewrite Nat.add_0_r. congruence.
  - exact (d_uniq _ _ _ _ A1 B1).
  - exact (d_uniq _ _ _ _ A2 B2).
  - exact (d_uniq _ _ _ _ A3 B3).
Qed.

Ltac trig p := let H := fresh in pose proof (cs1 p) as H; set (s := sin p) in *; set (c := cos p) in *; clearbody s c.

(** what the reverse transform yields for the true Jacobian K of J *)
Lemma rpz2xyz_exact : forall J r p k, r <> 0 -> (k < 12)%nat ->
  jac_rpz2xyz (jac_xyz2rpz J r p) r p k =
  J k + match k with 5%nat => 2 * J 0%nat * sin p / r | 6%nat => - 2 * J 0%nat * cos p / r | _ => 0 end.
Proof.
  intros J r p k Hr Hk. unfold jac_rpz2xyz, jac_xyz2rpz.
  assert (E : sin p * sin p = 1 - cos p * cos p) by (pose proof (cs1 p); lra).
  set (s := sin p) in *; set (c := cos p) in *; clearbody s c.
  do 12 (destruct k as [|k]; [field_simplify_eq; auto; try ring [E] |]); lia.
Qed.

Lemma jac_ext : forall K K' r p, (forall k, (k < 12)%nat -> K k = K' k) ->
  forall k, jac_rpz2xyz K r p k = jac_rpz2xyz K' r p k.
Proof.
  intros K K' r p H k. unfold jac_rpz2xyz.
  rewrite !H by lia. reflexivity.
Qed.

Lemma rpz2xyz_spec : forall J r p z K, r <> 0 -> cyl_jac J r p z K ->
  forall k, (k < 12)%nat ->
  jac_rpz2xyz K r p k =
  J k + match k with 5%nat => 2 * J 0%nat * sin p / r | 6%nat => - 2 * J 0%nat * cos p / r | _ => 0 end.
Proof.
  intros J r p z K Hr H k Hk.
  rewrite (jac_ext K (jac_xyz2rpz J r p)).
  - now apply rpz2xyz_exact.
  - apply (cyl_jac_uniq J r p z); auto. apply xyz2rpz_correct.
Qed.

Lemma rpz2xyz_iff : forall J r p z K, r <> 0 -> cyl_jac J r p z K ->
  ((forall k, (k < 12)%nat -> jac_rpz2xyz K r p k = J k) <-> J 0%nat = 0).
Proof.
  intros J r p z K Hr H. split; intros G.
  - pose proof (G 5%nat ltac:(lia)) as G5. pose proof (G 6%nat ltac:(lia)) as G6.
    rewrite (rpz2xyz_spec J r p z) in G5, G6 by (auto; lia). pose proof (cs1 p) as T.
    assert (A : J 0%nat * sin p = 0).
    { apply Rmult_eq_reg_r with (2 / r); [|unfold Rdiv; apply Rmult_integral_contrapositive_currified; [lra | now apply Rinv_neq_0_compat]].
      unfold Rdiv in *. lra. }
    assert (B : J 0%nat * cos p = 0).
    { apply Rmult_eq_reg_r with (2 / r); [|unfold Rdiv; apply Rmult_integral_contrapositive_currified; [lra | now apply Rinv_neq_0_compat]].
      unfold Rdiv in *. lra. }
    replace (J 0%nat) with (J 0%nat * (sin p * sin p + cos p * cos p)) by (rewrite T; ring).
    rewrite Rmult_plus_distr_l, <- !Rmult_assoc, A, B. ring.
  - intros k Hk. rewrite (rpz2xyz_spec J r p z) by auto. rewrite G.
    do 12 (destruct k as [|k]; [unfold Rdiv; ring |]); lia.
Qed.

(** the converse round trip *)
Lemma xyz2rpz_rpz2xyz : forall K r p k, r <> 0 -> (k < 12)%nat ->
  jac_xyz2rpz (jac_rpz2xyz K r p) r p k =
  K k - 2 * (K 0%nat * cos p - K 4%nat * sin p) * match k with 2%nat => sin p | 6%nat => cos p | _ => 0 end.
Proof.
  intros K r p k Hr Hk. unfold jac_rpz2xyz, jac_xyz2rpz.
  assert (E : sin p * sin p = 1 - cos p * cos p) by (pose proof (cs1 p); lra).
  set (s := sin p) in *; set (c := cos p) in *; clearbody s c.
  do 12 (destruct k as [|k]; [field_simplify_eq; auto; try ring [E] |]); lia.
Qed.

(** divergence and curl of the field in cylindrical components *)
Lemma div_curl_cyl : forall J r p z K, r <> 0 -> cyl_jac J r p z K ->
  J 1%nat + J 6%nat + J 11%nat = K 0%nat / r + K 1%nat + K 6%nat / r + K 11%nat /\
  vec_xyz2rpz (J 10%nat - J 7%nat, J 3%nat - J 9%nat, J 5%nat - J 2%nat) p =
  (K 10%nat / r - K 7%nat, K 3%nat - K 9%nat, K 4%nat / r + K 5%nat - K 2%nat / r).
Proof.
  intros J r p z K Hr H. pose proof (cyl_jac_uniq J r p z K _ H (xyz2rpz_correct J r p z)) as E.
  rewrite !E by lia. unfold jac_xyz2rpz, vec_xyz2rpz.
  assert (T : sin p * sin p = 1 - cos p * cos p) by (pose proof (cs1 p); lra).
  set (s := sin p) in *; set (c := cos p) in *; clearbody s c.
  split; [field_simplify_eq; auto; ring [T]|].
  apply f_equal2; [apply f_equal2|]; field_simplify_eq; auto; ring [T].
Qed.

(** ** Vectors *)
Lemma vec_inverse : forall v p, vec_xyz2rpz (vec_rpz2xyz v p) p = v /\ vec_rpz2xyz (vec_xyz2rpz v p) p = v.
Proof.
  intros [[a b] d] p. unfold vec_xyz2rpz, vec_rpz2xyz.
  assert (T : sin p * sin p = 1 - cos p * cos p) by (pose proof (cs1 p); lra).
  split; (apply f_equal2; [apply f_equal2|]; auto); ring [T].
Qed.
Definition dotv (u v : R * R * R) : R := fst (fst u) * fst (fst v) + snd (fst u) * snd (fst v) + snd u * snd v.
Lemma vec_dot : forall u v p, dotv (vec_rpz2xyz u p) (vec_rpz2xyz v p) = dotv u v /\
                              dotv (vec_xyz2rpz u p) (vec_xyz2rpz v p) = dotv u v.
Proof.
  intros [[a b] d] [[e f] g] p. unfold vec_xyz2rpz, vec_rpz2xyz, dotv. cbn [fst snd].
  assert (T : sin p * sin p = 1 - cos p * cos p) by (pose proof (cs1 p); lra).
  split; ring [T].
Qed.

(** ** fmod *)
Lemma floor_spec : forall x, floorR x <= x < floorR x + 1.
Proof. intros x. unfold floorR. pose proof (base_Int_part x) as [A B]. lra. Qed.
Lemma floor_unique : forall x n, IZR n <= x < IZR n + 1 -> floorR x = IZR n.
Proof.
  intros x n H. unfold floorR. f_equal. pose proof (base_Int_part x) as [A B].
  assert (IZR (Int_part x) < IZR (n + 1)) by (rewrite plus_IZR; lra).
  assert (IZR n < IZR (Int_part x + 1)) by (rewrite plus_IZR; lra).
  apply lt_IZR in H0, H1. lia.
Qed.
Lemma fmod_range : forall x y, 0 < y -> 0 <= fmod x y < y.
Proof.
  intros x y Hy. unfold fmod. pose proof (floor_spec (x / y)) as [A B].
  assert (E : x = y * (x / y)) by (field; lra). split.
  - assert (y * floorR (x / y) <= y * (x / y)) by (apply Rmult_le_compat_l; lra). lra.
  - assert (y * (x / y) < y * (floorR (x / y) + 1)) by (apply Rmult_lt_compat_l; lra). lra.
Qed.
Lemma fmod_congr : forall x y, exists n, fmod x y = x - y * IZR n.
Proof. intros x y. exists (Int_part (x / y)). reflexivity. Qed.
Lemma fmod_unique : forall x y n, 0 < y -> 0 <= x - y * IZR n < y -> fmod x y = x - y * IZR n.
Proof.
  intros x y n Hy H. unfold fmod. rewrite (floor_unique (x / y) n); auto.
  assert (E : x = y * (x / y)) by (field; lra). split.
  - apply Rmult_le_reg_l with y; lra.
  - apply Rmult_lt_reg_l with y; lra.
Qed.
Lemma fmod_neg : forall x y, y < 0 -> y < fmod x y <= 0.
Proof.
  intros x y Hy. unfold fmod. pose proof (floor_spec (x / y)) as [A B].
  assert (E : x = y * (x / y)) by (field; lra). split; nra.
Qed.

(** ** Sorted search *)
Definition increasing (base : nat -> R) (num : nat) := forall i j, (i < j < num)%nat -> base i < base j.

Lemma rcomp_eq : forall key base i, rcomp key base i = Eq <-> base i <= key < base (S i).
Proof.
  intros. unfold rcomp. destruct (Rle_dec _ _); [destruct (Rlt_dec _ _); [|destruct (Rlt_dec _ _)] |];
  split; intros; try discriminate; auto; lra.
Qed.
Lemma rcomp_lt : forall key base i num, increasing base num -> (S i < num)%nat -> (rcomp key base i = Lt <-> key < base i).
Proof.
  intros key base i num I H. pose proof (I i (S i) ltac:(lia)) as L. unfold rcomp.
  destruct (Rle_dec _ _); [destruct (Rlt_dec _ _); [|destruct (Rlt_dec _ _)] |]; split; intros; try discriminate; auto; lra.
Qed.
Lemma rcomp_gt : forall key base i num, increasing base num -> (S i < num)%nat -> (rcomp key base i = Gt <-> base (S i) <= key).
Proof.
  intros key base i num I H. pose proof (I i (S i) ltac:(lia)) as L. unfold rcomp.
  destruct (Rle_dec _ _); [destruct (Rlt_dec _ _); [|destruct (Rlt_dec _ _)] |]; split; intros; try discriminate; auto; lra.
Qed.

Lemma mid : forall l u, (l < u)%nat -> (l <= (l + u) / 2 < u)%nat.
Proof.
  intros l u H. split; [apply Nat.div_le_lower_bound; lia | apply Nat.div_lt_upper_bound; lia].
Qed.

Lemma inc_le : forall base num i j, increasing base num -> (i <= j < num)%nat -> base i <= base j.
Proof. intros base num i j I H. destruct (Nat.eq_dec i j); [subst; lra|]. left. apply I. lia. Qed.

Lemma bsearch_ok : forall key base num, increasing base num ->
  forall fuel l u, (u - l <= fuel)%nat -> (u <= num - 1)%nat ->
  True /\
  (forall i, In i (snd (bsearch fuel (rcomp key base) l u)) -> (S i < num)%nat) /\
  match fst (bsearch fuel (rcomp key base) l u) with
  | Some i => (l <= i < u)%nat /\ base i <= key < base (S i)
  | None => forall i, (l <= i < u)%nat -> ~ (base i <= key < base (S i))
  end.
Proof.
  intros key base num I fuel. induction fuel; intros l u F U.
  - cbn. repeat split; auto; try tauto. intros; lia.
  - cbn [bsearch]. destruct (Nat.ltb_spec l u).
    2:{ cbn. repeat split; auto; try tauto. intros; lia. }
    pose proof (mid l u H) as M. set (m := ((l + u) / 2)%nat) in *.
    destruct (rcomp key base m) eqn:C.
    + cbn [fst snd]. apply rcomp_eq in C. split; auto. split; [intros i [<- | []]; lia | split; [lia | lra]].
    + apply (rcomp_lt _ _ _ num) in C; auto; [|lia].
      destruct (IHfuel l m ltac:(lia) ltac:(lia)) as (_ & A & B).
      destruct (bsearch fuel (rcomp key base) l m) as [x tr]. cbn [fst snd] in *.
      split; auto. split.
      * intros i [<- | K]; [lia | auto].
      * destruct x; [split; [lia | tauto]|]. intros i Hi K.
        destruct (le_lt_dec m i); [|eapply B; eauto; lia].
        pose proof (inc_le base num m i I ltac:(lia)). lra.
    + apply (rcomp_gt _ _ _ num) in C; auto; [|lia].
      destruct (IHfuel (S m) u ltac:(lia) ltac:(lia)) as (_ & A & B).
      destruct (bsearch fuel (rcomp key base) (S m) u) as [x tr]. cbn [fst snd] in *.
      split; auto. split.
      * intros i [<- | K]; [lia | auto].
      * destruct x; [split; [lia | tauto]|]. intros i Hi K.
        destruct (le_lt_dec (S m) i); [eapply B; eauto; lia|].
        pose proof (inc_le base num (S i) (S m) I ltac:(lia)). lra.
Qed.

Lemma rsearch_reads : forall key base num, increasing base num ->
  forall i, In i (snd (rsearch key base num)) -> (S i < num)%nat.
Proof. intros key base num I. apply (bsearch_ok key base num I num 0 (num - 1)); lia. Qed.

Lemma rsearch_spec : forall key base num, increasing base num ->
  (forall i, fst (rsearch key base num) = Some i <-> (S i < num)%nat /\ base i <= key < base (S i)).
Proof.
  intros key base num I i.
  destruct (bsearch_ok key base num I num 0 (num - 1) ltac:(lia) ltac:(lia)) as (_ & _ & B).
  unfold rsearch. destruct (fst _) as [k|]; split; intros H.
  - injection H as <-. split; [lia | tauto].
  - f_equal. destruct B as [B1 B2]. destruct H as [H1 H2].
    destruct (lt_eq_lt_dec i k) as [[L|L]|L]; auto; exfalso.
    + pose proof (inc_le base num (S i) k I ltac:(lia)). lra.
    + pose proof (inc_le base num (S k) i I ltac:(lia)). lra.
  - discriminate.
  - exfalso. apply (B i); [lia | tauto].
Qed.

Lemma cell_exists : forall base key num, (0 < num)%nat -> base 0%nat <= key < base (num - 1)%nat ->
  exists i, (S i < num)%nat /\ base i <= key < base (S i).
Proof.
  intros base key num Hn H.
  assert (G : forall m, base 0%nat <= key < base m -> exists i, (S i <= m)%nat /\ base i <= key < base (S i)).
  { induction m; intros K; [lra|]. destruct (Rlt_dec key (base m)) as [L|L].
    - destruct IHm as (i & A & B); [lra|]. exists i. split; [lia | auto].
    - exists m. split; [lia | lra]. }
  destruct (G _ H) as (i & A & B). exists i. split; [lia | auto].
Qed.

Lemma rsearch_none : forall key base num, increasing base num -> (0 < num)%nat ->
  (fst (rsearch key base num) = None <-> ~ (base 0%nat <= key < base (num - 1)%nat)).
Proof.
  intros key base num I Hn. split; intros H.
  - intros K. destruct (cell_exists base key num Hn K) as (i & A). apply (rsearch_spec key base num I) in A. congruence.
  - destruct (fst (rsearch key base num)) as [i|] eqn:E; auto. exfalso. apply H.
    apply (rsearch_spec key base num I) in E. destruct E as [E1 E2].
    pose proof (inc_le base num 0 i I ltac:(lia)). pose proof (inc_le base num (S i) (num - 1) I ltac:(lia)). lra.
Qed.

(** the precondition the C standard puts on bsearch: less, then equal, then
    greater *)
Lemma rcomp_partitioned : forall key base num, increasing base num ->
  forall i j, (i < j)%nat -> (S j < num)%nat ->
  (rcomp key base i = Lt -> rcomp key base j = Lt) /\ (rcomp key base j = Gt -> rcomp key base i = Gt) /\
  (rcomp key base i = Eq -> rcomp key base j = Lt) /\ (rcomp key base j = Eq -> rcomp key base i = Gt).
Proof.
  intros key base num I i j L H.
  pose proof (I i j ltac:(lia)). pose proof (inc_le base num (S i) j I ltac:(lia)).
  pose proof (I i (S i) ltac:(lia)). pose proof (I j (S j) ltac:(lia)).
  rewrite !(rcomp_lt key base _ num), !(rcomp_gt key base _ num), !rcomp_eq by (auto; lia).
  repeat split; intros; lra.
Qed.

(** ** Point in polygon *)
(** the segment meets the open ray from (r,z) towards larger r *)
Definition meets_ray (r z : R) (a b : R * R) : Prop :=
  exists t, 0 <= t <= 1 /\ (1 - t) * snd a + t * snd b = z /\ r < (1 - t) * fst a + t * fst b.
Fixpoint edges (l : list (R * R)) : list ((R * R) * (R * R)) :=
  match l with a :: ((b :: _) as t) => (a, b) :: edges t | _ => [] end.
Inductive counts {A} (P : A -> Prop) : list A -> nat -> Prop :=
| counts_nil : counts P [] 0
| counts_yes : forall x l n, P x -> counts P l n -> counts P (x :: l) (S n)
| counts_no : forall x l n, ~ P x -> counts P l n -> counts P (x :: l) n.

Lemma seg_neg : forall t z1 z2, 0 <= t <= 1 -> z1 <> 0 -> z2 <> 0 -> (1 - t) * z1 + t * z2 = 0 -> z1 * z2 < 0.
Proof.
  intros t z1 z2 T N1 N2 E. assert (t <> 0) by (intros ->; lra). assert (t <> 1) by (intros ->; lra).
  assert ((1 - t) * (z1 * z2) = - (t * (z2 * z2))) by nra. assert (0 < z2 * z2) by nra.
  assert (0 < t * (z2 * z2)) by nra. nra.
Qed.
Lemma crosses_iff : forall r z a b, snd a <> z -> snd b <> z ->
  (crosses r z a b = true <-> meets_ray r z a b).
Proof.
  intros r z [ra za] [rb zb] Ha Hb. unfold crosses, meets_ray. cbn [fst snd] in *.
  set (z1 := za - z). set (z2 := zb - z).
  assert (N1 : z1 <> 0) by (unfold z1; lra). assert (N2 : z2 <> 0) by (unfold z2; lra).
  assert (EZ : za = z1 + z /\ zb = z2 + z) by (unfold z1, z2; lra). destruct EZ as [EA EB].
  rewrite EA, EB in *. clearbody z1 z2. clear EA EB. split.
  - destruct (Rlt_dec (z1 * z2) 0) as [L|]; [|discriminate].
    destruct (Rlt_dec _ _) as [Q|]; [|discriminate]. intros _.
    assert (D : z1 - z2 <> 0) by nra.
    exists (z1 / (z1 - z2)).
    assert (T : 0 < z1 / (z1 - z2) < 1).
    { destruct (Rlt_dec 0 z1).
      - assert (z2 < 0) by nra. split; [apply Rdiv_lt_0_compat; lra|].
        apply Rmult_lt_reg_r with (z1 - z2); [lra|]. unfold Rdiv. rewrite Rmult_assoc, Rinv_l by lra. lra.
      - assert (z1 < 0) by lra. assert (0 < z2) by nra.
        replace (z1 / (z1 - z2)) with (- z1 / (z2 - z1)) by (field; lra).
        split; [apply Rdiv_lt_0_compat; lra|].
        apply Rmult_lt_reg_r with (z2 - z1); [lra|]. unfold Rdiv. rewrite Rmult_assoc, Rinv_l by lra. lra. }
    split; [lra|]. split; [field; auto|].
    assert (E : (1 - z1 / (z1 - z2)) * ra + z1 / (z1 - z2) * rb - r = ra - r + z1 * (rb - r - (ra - r)) / (z1 - z2)) by (field; auto).
    lra.
  - intros (t & [T0 T1] & E & L).
    assert (E' : (1 - t) * z1 + t * z2 = 0) by lra.
    assert (t <> 0) by (intros ->; lra). assert (t <> 1) by (intros ->; lra).
    assert (NEG : z1 * z2 < 0).
    { assert ((1 - t) * (z1 * z2) = - (t * (z2 * z2))) by nra. assert (0 < z2 * z2) by nra.
      assert (0 < t * (z2 * z2)) by nra. nra. }
    destruct (Rlt_dec (z1 * z2) 0) as [_|]; [|contradiction].
    assert (D : z1 - z2 <> 0) by nra.
    assert (ET : t = z1 / (z1 - z2)) by (apply Rmult_eq_reg_r with (z1 - z2); auto; field_simplify; auto; lra).
    destruct (Rlt_dec _ _) as [|Q]; auto. exfalso. apply Q.
    assert (EE : ra - r + z1 * (rb - r - (ra - r)) / (z1 - z2) = (1 - t) * ra + t * rb - r) by (rewrite ET; field; auto).
    lra.
Qed.

Lemma hits_edges : forall r z l, hits r z l = length (filter (fun e => crosses r z (fst e) (snd e)) (edges l)).
Proof.
  intros r z l. induction l as [|a [|b t] IH]; auto.
  change (hits r z (a :: b :: t)) with ((if crosses r z a b then 1 else 0) + hits r z (b :: t))%nat.
  change (edges (a :: b :: t)) with ((a, b) :: edges (b :: t)). cbn [filter fst snd]. rewrite IH.
  destruct (crosses r z a b); reflexivity.
Qed.

Lemma edges_in : forall l a b, In (a, b) (edges l) -> In a l /\ In b l.
Proof.
  induction l as [|x [|y t] IH]; intros a b H; try (destruct H).
  - injection H as <- <-. cbn. auto.
  - apply IH in H. cbn. destruct H; split; right; auto.
Qed.

Lemma hits_count : forall r z l, (forall a, In a l -> snd a <> z) ->
  counts (fun e => meets_ray r z (fst e) (snd e)) (edges l) (hits r z l).
Proof.
  intros r z l H. rewrite hits_edges.
  assert (K : forall e, In e (edges l) -> snd (fst e) <> z /\ snd (snd e) <> z).
  { intros [a b] I. apply edges_in in I. cbn [fst snd]. split; apply H; tauto. }
  induction (edges l) as [|e t IH]; [constructor|].
  cbn [filter]. destruct (K e (or_introl eq_refl)) as [K1 K2].
  destruct (crosses r z (fst e) (snd e)) eqn:C.
  - constructor; [now apply crosses_iff | apply IH; intros; apply K; now right].
  - constructor; [rewrite <- crosses_iff by auto; congruence | apply IH; intros; apply K; now right].
Qed.

Lemma counts_fun : forall A (P : A -> Prop) l n m, counts P l n -> counts P l m -> n = m.
Proof.
  intros A P l n m H. revert m. induction H; intros m K; inversion K; subst; try contradiction; auto; f_equal; auto.
Qed.

Lemma pip_iff : forall r z l, (forall a, In a l -> snd a <> z) ->
  (point_in_polygon r z l = 1%nat <->
   exists n, counts (fun e => meets_ray r z (fst e) (snd e)) (edges l) n /\ Nat.Odd n).
Proof.
  intros r z l H. unfold point_in_polygon. pose proof (hits_count r z l H) as C. split.
  - intros E. exists (hits r z l). split; auto. exists (hits r z l / 2)%nat.
    pose proof (Nat.div_mod (hits r z l) 2 ltac:(lia)). lia.
  - intros (n & Cn & [m E]). rewrite (counts_fun _ _ _ _ _ C Cn), E. rewrite Nat.add_comm, Nat.mul_comm, Nat.mod_add by lia. reflexivity.
Qed.

Lemma pip_01 : forall r z l, point_in_polygon r z l = 0%nat \/ point_in_polygon r z l = 1%nat.
Proof. intros. unfold point_in_polygon. pose proof (Nat.mod_upper_bound (hits r z l) 2). lia. Qed.

(** reversal *)
Lemma crosses_sym : forall r z a b, crosses r z a b = crosses r z b a.
Proof.
  intros r z [ra za] [rb zb]. unfold crosses. cbn [fst snd].
  replace ((za - z) * (zb - z)) with ((zb - z) * (za - z)) by ring.
  destruct (Rlt_dec ((zb - z) * (za - z)) 0) as [L|]; auto.
  assert (D : za <> zb) by (intros E; rewrite E in L; pose proof (Rle_0_sqr (zb - z)); unfold Rsqr in *; lra).
  replace (ra - r + (za - z) * (rb - r - (ra - r)) / (za - z - (zb - z))) with
          (rb - r + (zb - z) * (ra - r - (rb - r)) / (zb - z - (za - z))) by (field; split; intros K; apply D; lra).
  reflexivity.
Qed.
Lemma hits_app : forall r z l a t, hits r z (l ++ a :: t) = (hits r z (l ++ [a]) + hits r z (a :: t))%nat.
Proof.
  intros r z l a t. induction l as [|x l IH].
  - reflexivity.
  - destruct l as [|y l].
    + cbn [app]. change (hits r z (x :: a :: t)) with ((if crosses r z x a then 1 else 0) + hits r z (a :: t))%nat.
      change (hits r z [x; a]) with ((if crosses r z x a then 1 else 0) + 0)%nat. lia.
    + cbn [app] in *. change (hits r z (x :: y :: l ++ a :: t)) with ((if crosses r z x y then 1 else 0) + hits r z (y :: l ++ a :: t))%nat.
      change (hits r z (x :: y :: l ++ [a])) with ((if crosses r z x y then 1 else 0) + hits r z (y :: l ++ [a]))%nat. lia.
Qed.
Lemma hits_rev : forall r z l, hits r z (rev l) = hits r z l.
Proof.
  intros r z l. induction l as [|a [|b t] IH]; auto.
  cbn [rev] in *. rewrite <- app_assoc. cbn [app]. rewrite hits_app, IH.
  change (hits r z (a :: b :: t)) with ((if crosses r z a b then 1 else 0) + hits r z (b :: t))%nat.
  change (hits r z [b; a]) with ((if crosses r z b a then 1 else 0) + 0)%nat. rewrite (crosses_sym r z b a). lia.
Qed.

(** translation *)
Definition shift (dr dz : R) (a : R * R) : R * R := (fst a + dr, snd a + dz).
Lemma hits_shift : forall r z l dr dz, hits (r + dr) (z + dz) (map (shift dr dz) l) = hits r z l.
Proof.
  intros r z l dr dz. induction l as [|a [|b t] IH]; auto.
  cbn [map] in *.
  change (hits r z (a :: b :: t)) with ((if crosses r z a b then 1 else 0) + hits r z (b :: t))%nat.
  change (hits (r + dr) (z + dz) (shift dr dz a :: shift dr dz b :: map (shift dr dz) t)) with
   ((if crosses (r + dr) (z + dz) (shift dr dz a) (shift dr dz b) then 1 else 0) + hits (r + dr) (z + dz) (shift dr dz b :: map (shift dr dz) t))%nat.
  rewrite IH. f_equal. unfold crosses, shift. cbn [fst snd].
  replace (snd a + dz - (z + dz)) with (snd a - z) by ring. replace (snd b + dz - (z + dz)) with (snd b - z) by ring.
  replace (fst a + dr - (r + dr)) with (fst a - r) by ring. replace (fst b + dr - (r + dr)) with (fst b - r) by ring.
  reflexivity.
Qed.

(** points left or right of the polygon *)
Definition above (z : R) (a : R * R) : bool := if Rlt_dec z (snd a) then true else false.
Lemma crosses_left : forall r z a b, snd a <> z -> snd b <> z -> r < fst a -> r < fst b ->
  crosses r z a b = xorb (above z a) (above z b).
Proof.
  intros r z a b Ha Hb La Lb. unfold above.
  assert (C : crosses r z a b = true <-> (snd a - z) * (snd b - z) < 0).
  { rewrite crosses_iff by auto. split.
    - intros (t & T & E & _). apply (seg_neg t); lra.
    - intros L.
      set (z1 := snd a - z) in *. set (z2 := snd b - z) in *. assert (D : z1 - z2 <> 0) by nra.
      assert (T : 0 < z1 / (z1 - z2) < 1).
      { destruct (Rlt_dec 0 z1).
        - assert (z2 < 0) by nra. split; [apply Rdiv_lt_0_compat; lra|].
          apply Rmult_lt_reg_r with (z1 - z2); [lra|]. unfold Rdiv. rewrite Rmult_assoc, Rinv_l by lra. lra.
        - assert (z1 <> 0) by nra. assert (z1 < 0) by lra. assert (0 < z2) by nra.
          replace (z1 / (z1 - z2)) with (- z1 / (z2 - z1)) by (field; lra).
          split; [apply Rdiv_lt_0_compat; lra|].
          apply Rmult_lt_reg_r with (z2 - z1); [lra|]. unfold Rdiv. rewrite Rmult_assoc, Rinv_l by lra. lra. }
      exists (z1 / (z1 - z2)). split; [lra|]. split.
      + replace (snd a) with (z1 + z) by (unfold z1; ring). replace (snd b) with (z2 + z) by (unfold z2; ring). field. auto.
      + set (t := z1 / (z1 - z2)) in *. nra. }
  destruct (crosses r z a b) eqn:E; symmetry.
  - apply proj1 in C. specialize (C eq_refl). destruct (Rlt_dec z (snd a)), (Rlt_dec z (snd b)); auto; exfalso; nra.
  - assert (~ (snd a - z) * (snd b - z) < 0) by (intros K; apply C in K; congruence).
    destruct (Rlt_dec z (snd a)), (Rlt_dec z (snd b)); auto; exfalso; nra.
Qed.
Lemma crosses_right : forall r z a b, fst a <= r -> fst b <= r -> crosses r z a b = false.
Proof.
  intros r z a b La Lb. unfold crosses. destruct (Rlt_dec _ 0) as [L|]; auto. destruct (Rlt_dec 0 _) as [Q|]; auto.
  exfalso. set (z1 := snd a - z) in *. set (z2 := snd b - z) in *. assert (D : z1 - z2 <> 0) by nra.
  assert (E : fst a - r + z1 * (fst b - r - (fst a - r)) / (z1 - z2) = (z1 * (fst b - r) - z2 * (fst a - r)) / (z1 - z2)) by (field; auto).
  rewrite E in Q. destruct (Rlt_dec z2 z1).
  - assert (z2 < 0 < z1) by nra.
    assert ((z1 * (fst b - r) - z2 * (fst a - r)) / (z1 - z2) * (z1 - z2) <= 0).
    { unfold Rdiv. rewrite Rmult_assoc, Rinv_l by lra. nra. } nra.
  - assert (z1 < 0 < z2) by nra.
    assert (0 <= (z1 * (fst b - r) - z2 * (fst a - r)) / (z1 - z2) * (z1 - z2)).
    { unfold Rdiv. rewrite Rmult_assoc, Rinv_l by lra. nra. } nra.
Qed.
Lemma hits_right : forall r z l, (forall a, In a l -> fst a <= r) -> hits r z l = 0%nat.
Proof.
  intros r z l H. induction l as [|a [|b t] IH]; auto.
  change (hits r z (a :: b :: t)) with ((if crosses r z a b then 1 else 0) + hits r z (b :: t))%nat.
  rewrite crosses_right, IH; auto; intros; apply H; cbn in *; tauto.
Qed.
Lemma last_indep : forall A (l : list A) x y, l <> [] -> last l x = last l y.
Proof.
  induction l as [|a [|b t] IH]; intros x y H; [contradiction | reflexivity |].
  change (last (b :: t) x = last (b :: t) y). apply IH. discriminate.
Qed.
Lemma hits_left_parity : forall r z a l, (forall x, In x (a :: l) -> snd x <> z /\ r < fst x) ->
  Nat.odd (hits r z (a :: l)) = xorb (above z a) (above z (last (a :: l) a)).
Proof.
  intros r z a l. revert a. induction l as [|b t IH]; intros a H.
  - cbn. now rewrite xorb_nilpotent.
  - change (hits r z (a :: b :: t)) with ((if crosses r z a b then 1 else 0) + hits r z (b :: t))%nat.
    rewrite Nat.odd_add, IH by (intros; apply H; now right).
    rewrite crosses_left by (apply H; cbn; tauto).
    change (last (a :: b :: t) a) with (last (b :: t) a).
    assert (EL : last (b :: t) a = last (b :: t) b).
    { apply last_indep. discriminate. }
    rewrite EL. destruct (above z a), (above z b), (above z (last (b :: t) b)); reflexivity.
Qed.
Lemma pip_left : forall r z a l, (forall x, In x (a :: l) -> snd x <> z /\ r < fst x) ->
  last (a :: l) a = a -> point_in_polygon r z (a :: l) = 0%nat.
Proof.
  intros r z a l H L. pose proof (hits_left_parity r z a l H) as P. rewrite L, xorb_nilpotent in P.
  unfold point_in_polygon. rewrite <- Nat.negb_even in P. apply negb_false_iff, Nat.even_spec in P. destruct P as [m E].
  rewrite E, Nat.mul_comm. now apply Nat.mod_mul.
Qed.

(** rectangle *)
Definition rectangle (r0 r1 z0 z1 : R) : list (R * R) := [(r0, z0); (r1, z0); (r1, z1); (r0, z1); (r0, z0)].
Lemma pip_rectangle : forall r0 r1 z0 z1 r z, r0 < r1 -> z0 < z1 ->
  (point_in_polygon r z (rectangle r0 r1 z0 z1) = 1%nat <-> r0 <= r < r1 /\ z0 < z < z1).
Proof.
  intros r0 r1 z0 z1 r z Hr Hz. unfold point_in_polygon, rectangle. cbn [hits]. unfold crosses. cbn [fst snd].
  destruct (Rlt_dec ((z0 - z) * (z0 - z)) 0); [exfalso; pose proof (Rle_0_sqr (z0 - z)); unfold Rsqr in *; lra|].
  destruct (Rlt_dec ((z1 - z) * (z1 - z)) 0); [exfalso; pose proof (Rle_0_sqr (z1 - z)); unfold Rsqr in *; lra|].
  destruct (Rlt_dec ((z0 - z) * (z1 - z)) 0) as [L|L].
  - assert (z0 < z < z1) by nra.
    destruct (Rlt_dec ((z1 - z) * (z0 - z)) 0) as [|]; [|exfalso; nra].
    replace (r1 - r + (z0 - z) * (r1 - r - (r1 - r)) / (z0 - z - (z1 - z))) with (r1 - r) by (field; lra).
    replace (r0 - r + (z1 - z) * (r0 - r - (r0 - r)) / (z1 - z - (z0 - z))) with (r0 - r) by (field; lra).
    destruct (Rlt_dec 0 (r1 - r)), (Rlt_dec 0 (r0 - r)); cbn; split; intros; try discriminate; try lra; repeat split; lra.
  - destruct (Rlt_dec ((z1 - z) * (z0 - z)) 0) as [|]; [exfalso; nra|].
    cbn. split; [discriminate|]. intros [_ ?]. exfalso. nra.
Qed.
