(** Cells of an axis and the index arithmetic that finds them. *)
From Coq Require Import Reals List ZArith Bool Lra Lia.
From Verif Require Import MathModel MathProofs AxisModel.
Import ListNotations.
Local Open Scope R_scope.

(** a usable axis *)
Definition axis_ok (a : axis) : Prop :=
  amin a < amax a /\ agrid a = grid_step (an a) (abc a) (amin a) (amax a) /\
  ((abc a = NATURALBC /\ (2 <= an a)%Z) \/ (abc a = PERIODICBC /\ (1 <= an a)%Z)).
(** x lies in the closed cell from node i to node i', at the normalised
    position t; a periodic axis repeats for ever *)
Definition on_cell (a : axis) (x : R) (i i' : Z) (t : R) : Prop :=
  0 <= t <= 1 /\
  ((abc a = NATURALBC /\ (0 <= i /\ i' = i + 1 /\ i' < an a)%Z /\ x = amin a + (IZR i + t) * agrid a) \/
   (abc a = PERIODICBC /\ exists k, i = (k mod an a)%Z /\ i' = ((k + 1) mod an a)%Z /\ x = amin a + (IZR k + t) * agrid a)).

Lemma bc_distinct : NATURALBC <> PERIODICBC.
Proof. discriminate. Qed.
Lemma mk_axis_ok : forall n bc mn mx, mn < mx -> (bc = NATURALBC /\ (2 <= n)%Z) \/ (bc = PERIODICBC /\ (1 <= n)%Z) ->
  axis_ok (mk_axis n bc mn mx).
Proof. intros. split; [|split]; auto. Qed.
Lemma axis_nat : forall a, axis_ok a -> abc a = NATURALBC ->
  (2 <= an a)%Z /\ 0 < agrid a /\ amax a = amin a + (IZR (an a) - 1) * agrid a.
Proof.
  intros a (L & G & [[B N]|[B N]]) E; [|rewrite E in B; discriminate].
  split; auto. unfold grid_step in G. rewrite E in G. change (NATURALBC =? NATURALBC)%Z with true in G. cbv iota in G.
  rewrite Z.mul_1_l, minus_IZR in G. assert (2 <= IZR (an a)) by now apply IZR_le.
  split; [rewrite G; apply Rdiv_lt_0_compat; lra | rewrite G; field; lra].
Qed.
Lemma axis_per : forall a, axis_ok a -> abc a = PERIODICBC ->
  (1 <= an a)%Z /\ 0 < agrid a /\ amax a = amin a + IZR (an a) * agrid a.
Proof.
  intros a (L & G & [[B N]|[B N]]) E; [rewrite E in B; discriminate|].
  split; auto. unfold grid_step in G. rewrite E in G. change (PERIODICBC =? NATURALBC)%Z with false in G. cbv iota in G.
  rewrite Z.mul_0_r, Z.sub_0_r in G. assert (1 <= IZR (an a)) by now apply IZR_le.
  split; [rewrite G; apply Rdiv_lt_0_compat; lra | rewrite G; field; lra].
Qed.
Lemma grid_pos : forall a, axis_ok a -> 0 < agrid a.
Proof. intros a O. pose proof O as (_ & _ & [[B _]|[B _]]); [apply axis_nat in B | apply axis_per in B]; tauto. Qed.

Lemma trunc_pos : forall x, 0 <= x -> IZR (trunc x) <= x < IZR (trunc x) + 1.
Proof. intros x H. unfold trunc. destruct (Rle_dec 0 x); [|lra]. pose proof (floor_spec x). unfold floorR in *. lra. Qed.
Lemma trunc_unique : forall x k, 0 <= x -> IZR k <= x < IZR k + 1 -> trunc x = k.
Proof. intros x k P H. unfold trunc. destruct (Rle_dec 0 x); [|lra]. apply eq_IZR. now apply floor_unique. Qed.
Lemma trunc_int : forall k, (0 <= k)%Z -> trunc (IZR k) = k.
Proof. intros k H. apply IZR_le in H. apply trunc_unique; lra. Qed.

Lemma wrap_per : forall a x, axis_ok a -> abc a = PERIODICBC ->
  exists m, wrap a x = x - IZR m * (IZR (an a) * agrid a) /\ amin a <= wrap a x < amax a.
Proof.
  intros a x O E. destruct (axis_per a O E) as (N & G & M). unfold wrap. rewrite E. cbn [Z.eqb PERIODICBC Pos.eqb].
  set (P := amax a - amin a). assert (HP : P = IZR (an a) * agrid a) by (unfold P; lra).
  assert (P0 : 0 < P) by (destruct O as [O _]; unfold P; lra).
  assert (D : x - amin a = (x - amin a) / P * P) by (field; lra). unfold cfmod. set (q := (x - amin a) / P) in *.
  rewrite <- HP. unfold trunc. destruct (Rle_dec 0 q).
  - pose proof (floor_spec q) as F. unfold floorR in F. set (k := Int_part q) in *.
    destruct (Rlt_dec _ _) as [L|L]; [nra|]. exists k. split; [lra|]. split; [nra|]. unfold P in *. nra.
  - pose proof (floor_spec (- q)) as F. unfold floorR in F. set (k := Int_part (- q)) in *. rewrite opp_IZR.
    destruct (Rlt_dec _ _) as [L|L].
    + exists (- k - 1)%Z. rewrite minus_IZR, opp_IZR. split; [lra|]. unfold P in *. nra.
    + exists (- k)%Z. rewrite opp_IZR. split; [lra|]. unfold P in *. nra.
Qed.
Lemma wrap_nat : forall a x, abc a = NATURALBC -> wrap a x = x.
Proof. intros a x E. unfold wrap. now rewrite E. Qed.

Lemma on_cell_ex : forall a x, axis_ok a -> (abc a = NATURALBC -> amin a <= x <= amax a) ->
  exists i i' t, on_cell a x i i' t.
Proof.
  intros a x O H. pose proof (grid_pos a O) as G. pose proof O as (_ & _ & [[B _]|[B _]]).
  - destruct (axis_nat a O B) as (N & _ & M). specialize (H B).
    assert (D : x = amin a + (x - amin a) / agrid a * agrid a) by (field; lra). set (q := (x - amin a) / agrid a) in *.
    destruct (Req_dec x (amax a)) as [X|X].
    + exists (an a - 2)%Z, (an a - 1)%Z, 1. split; [lra|]. left. split; auto. split; [lia|]. rewrite minus_IZR. nra.
    + assert (0 <= q) by nra. destruct (trunc_pos q) as [T1 T2]; auto. exists (trunc q), (trunc q + 1)%Z, (q - IZR (trunc q)).
      split; [lra|]. left. split; auto. split.
      * assert (-1 < IZR (trunc q)) by lra. apply lt_IZR in H1. assert (IZR (trunc q) < IZR (an a) - 1) by nra.
        rewrite <- minus_IZR in H2. apply lt_IZR in H2. lia.
      * lra.
  - assert (D : x = amin a + (x - amin a) / agrid a * agrid a) by (field; lra). set (q := (x - amin a) / agrid a) in *.
    pose proof (floor_spec q) as F. unfold floorR in F. exists (Int_part q mod an a)%Z, ((Int_part q + 1) mod an a)%Z, (q - IZR (Int_part q)).
    split; [lra|]. right. split; auto. exists (Int_part q). repeat split; auto. lra.
Qed.

(** what the index arithmetic computes *)
Definition located (a : axis) (x : R) (i0 : Z) (i i' : Z) (t : R) : Prop :=
  outside a x i0 = false /\ (0 <= i0 < an a)%Z /\ (0 <= i0 + jump a i0 1 < an a)%Z /\ 0 <= frac a x i0 <= 1 /\
  ((i0 = i /\ (i0 + jump a i0 1)%Z = i' /\ frac a x i0 = t) \/ (t = 1 /\ i0 = i' /\ frac a x i0 = 0)).
Lemma jump_stride : forall a i s, jump a i s = (s * jump a i 1)%Z.
Proof. intros. unfold jump. destruct (_ && _)%bool; ring. Qed.
Lemma jump_per : forall a k, abc a = PERIODICBC -> (1 <= an a)%Z -> (k mod an a + jump a (k mod an a) 1)%Z = ((k + 1) mod an a)%Z.
Proof.
  intros a k B N. pose proof (Z.mod_pos_bound k (an a) ltac:(lia)) as P. unfold jump. rewrite B. cbn [Z.eqb PERIODICBC Pos.eqb andb].
  rewrite Z.mul_1_r. pose proof (Z.div_mod k (an a) ltac:(lia)) as D. destruct (Z.eqb_spec (k mod an a) (an a - 1)) as [Q|Q].
  - apply (Z.mod_unique_pos _ _ (k / an a + 1)); nia.
  - apply (Z.mod_unique_pos _ _ (k / an a)); lia.
Qed.
Lemma jump_nat : forall a i s, abc a = NATURALBC -> jump a i s = s.
Proof. intros a i s B. unfold jump. now rewrite B. Qed.
Lemma outside_nat : forall a x i, abc a = NATURALBC -> (outside a x i = false <-> amin a <= x <= amax a).
Proof.
  intros a x i B. unfold outside. rewrite B. cbn [Z.eqb PERIODICBC NATURALBC andb].
  destruct (Rle_dec _ _); [destruct (Rle_dec _ _)|]; cbn; split; intros; auto; try discriminate; lra.
Qed.
Lemma outside_per : forall a x i, abc a = PERIODICBC -> outside a x i = false.
Proof. intros a x i B. unfold outside. rewrite B. cbn. now destruct (_ =? _)%Z. Qed.

Lemma index_spl_lin : forall a x, x <> amax a -> index_spl a x = index_lin a x.
Proof. intros a x N. unfold index_spl, index_lin. destruct (Req_EM_T _ _); [easy|]. f_equal. lra. Qed.
Lemma at_index : forall a k t, agrid a <> 0 -> (amin a + (IZR k + t) * agrid a - amin a) / agrid a = IZR k + t.
Proof. intros. field. auto. Qed.
Lemma at_frac : forall a k j t, agrid a <> 0 -> frac a (amin a + (IZR k + t) * agrid a) j = IZR k + t - IZR j.
Proof. intros. unfold frac. field. auto. Qed.

Theorem lin_located : forall a x i i' t, axis_ok a -> on_cell a x i i' t -> (abc a = NATURALBC -> x < amax a) ->
  located a (wrap a x) (index_lin a (wrap a x)) i i' t.
Proof.
  intros a x i i' t O [T [(B & (I1 & I2 & I3) & ->)|(B & k & -> & -> & X)]] H; pose proof (grid_pos a O) as G.
  - destruct (axis_nat a O B) as (N & _ & M). rewrite wrap_nat by auto. specialize (H B).
    assert (P0 : 0 <= IZR i) by now apply IZR_le.
    assert (E : index_lin a (amin a + (IZR i + t) * agrid a) = if Req_EM_T t 1 then i' else i).
    { unfold index_lin. rewrite at_index by lra. destruct (Req_EM_T t 1) as [->|NT].
      - apply trunc_unique; [lra|]. rewrite I2, plus_IZR. lra.
      - apply trunc_unique; lra. }
    unfold located. rewrite E. rewrite jump_nat by auto. rewrite outside_nat by auto.
    assert (IZR i + t < IZR (an a) - 1) by nra.
    split; [nra|]. destruct (Req_EM_T t 1) as [->|NT].
    + assert (IZR (i + 2) < IZR (an a)) by (rewrite plus_IZR; lra). apply lt_IZR in H1.
      split; [lia|]. split; [lia|]. rewrite at_frac, I2, plus_IZR by lra. split; [lra|]. right. split; auto. split; [lia|]. lra.
    + split; [lia|]. split; [lia|]. rewrite at_frac by lra. split; [lra|]. left. split; auto. split; [lia|]. lra.
  - destruct (axis_per a O B) as (N & _ & M). destruct (wrap_per a x O B) as (m & W & R1 & R2).
    assert (E' : forall k', IZR k' = IZR k - IZR m * IZR (an a) -> (k' = k - m * an a)%Z).
    { intros k' E'. rewrite <- mult_IZR, <- minus_IZR in E'. now apply eq_IZR. }
    set (k' := (k - m * an a)%Z). assert (K : IZR k' = IZR k - IZR m * IZR (an a)) by (unfold k'; now rewrite minus_IZR, mult_IZR).
    assert (W' : wrap a x = amin a + (IZR k' + t) * agrid a) by (rewrite W, X, K; ring).
    assert (U : 0 <= IZR k' + t < IZR (an a)) by (rewrite W', M in *; split; nra).
    assert (E : index_lin a (wrap a x) = if Req_EM_T t 1 then (k' + 1)%Z else k').
    { unfold index_lin. rewrite W', at_index by lra. destruct (Req_EM_T t 1) as [->|NT].
      - apply trunc_unique; [lra|]. rewrite plus_IZR. lra.
      - apply trunc_unique; lra. }
    unfold located. rewrite E, outside_per by auto. split; auto. destruct (Req_EM_T t 1) as [->|NT].
    + assert (-1 <= IZR k') by lra. apply le_IZR in H0. assert (IZR (k' + 1) < IZR (an a)) by (rewrite plus_IZR; lra). apply lt_IZR in H1.
      assert (MM : ((k + 1) mod an a = k' + 1)%Z) by (symmetry; apply (Z.mod_unique_pos _ _ m); unfold k' in *; lia).
      rewrite <- MM. rewrite jump_per by auto. pose proof (Z.mod_pos_bound (k + 1 + 1) (an a) ltac:(lia)).
      pose proof (Z.mod_pos_bound (k + 1) (an a) ltac:(lia)).
      rewrite W', at_frac, MM, plus_IZR by lra. repeat (split; [lra || lia|]). right. repeat split; lra.
    + assert (-1 < IZR k') by lra. apply lt_IZR in H0. assert (IZR k' < IZR (an a)) by lra. apply lt_IZR in H1.
      assert (MM : (k mod an a = k')%Z) by (symmetry; apply (Z.mod_unique_pos _ _ m); unfold k' in *; lia).
      rewrite <- MM. rewrite jump_per by auto. pose proof (Z.mod_pos_bound (k + 1) (an a) ltac:(lia)).
      pose proof (Z.mod_pos_bound k (an a) ltac:(lia)).
      rewrite W', at_frac, MM by lra. repeat (split; [lra || lia|]). left. repeat split; lra.
Qed.
Theorem spl_located : forall a x i i' t, axis_ok a -> on_cell a x i i' t ->
  located a (wrap a x) (index_spl a (wrap a x)) i i' t.
Proof.
  intros a x i i' t O C. pose proof (grid_pos a O) as G. destruct (Req_dec (wrap a x) (amax a)) as [E|E].
  - destruct C as [T [(B & (I1 & I2 & I3) & X)|(B & _)]].
    2:{ destruct (wrap_per a x O B) as (m & _ & _ & L). lra. }
    destruct (axis_nat a O B) as (N & _ & M). rewrite wrap_nat in * by auto.
    assert (Q : IZR i + t = IZR (an a) - 1) by nra.
    assert (IZR i <= IZR (an a) - 2) by (rewrite <- minus_IZR; apply IZR_le; lia). assert (t = 1) by lra. subst t.
    assert (HI : (i = an a - 2)%Z) by (apply eq_IZR; rewrite minus_IZR; lra).
    assert (EI : index_spl a x = i).
    { unfold index_spl. destruct (Req_EM_T _ _); [|easy]. rewrite X, at_index by lra.
      replace (IZR i + 1 - 1 * 1) with (IZR i) by ring. now apply trunc_int. }
    rewrite EI. unfold located. rewrite outside_nat, jump_nat, X, at_frac by (auto; lra).
    split; [destruct O; lra|]. split; [lia|]. split; [lia|]. split; [lra|]. left. split; auto. split; [lia|]. lra.
  - rewrite index_spl_lin by auto. apply lin_located; auto. intros B. rewrite wrap_nat in E by auto.
    destruct C as [T [(_ & (I1 & I2 & I3) & X)|(B' & _)]]; [|rewrite B in B'; discriminate].
    destruct (axis_nat a O B) as (N & _ & M). apply Rnot_le_lt. intros L. apply E.
    assert (IZR i + 1 <= IZR (an a) - 1) by (rewrite <- plus_IZR, <- minus_IZR; apply IZR_le; lia). rewrite M in *. nra.
Qed.

Lemma located_outside : forall a x i0 i i' t, located a x i0 i i' t -> outside a x i0 = false.
Proof. unfold located. tauto. Qed.
Lemma outside_true : forall a x i, axis_ok a ->
  (outside a (wrap a x) i = true <-> abc a = NATURALBC /\ ~ (amin a <= x <= amax a)).
Proof.
  intros a x i (_ & _ & [[B _]|[B _]]).
  - rewrite wrap_nat by auto. pose proof (outside_nat a x i B). destruct (outside a x i).
    + split; auto. intros _. split; auto. intros K. apply H in K. discriminate.
    + split; [discriminate|]. tauto.
  - rewrite outside_per by auto. split; [discriminate|]. intros [B' _]. rewrite B in B'. discriminate.
Qed.
(** in the middle of a cell the routines use exactly that cell *)
Lemma located_exact : forall a x i0 i i' t, located a x i0 i i' t -> t < 1 -> i0 = i /\ (i0 + jump a i0 1)%Z = i' /\ frac a x i0 = t.
Proof. intros a x i0 i i' t (_ & _ & _ & _ & [H|[H _]]) T; [auto|lra]. Qed.
