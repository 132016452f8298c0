(** The specification of a spline interpolant determines the function. *)
From Coq Require Import Reals List Arith ZArith Bool Lra Lia.
From Verif Require Import Deriv AxisModel AxisProofs Glue LintProofs SplineModel SplineProofs.
Local Open Scope R_scope.

(** a diagonally dominant homogeneous system has only the zero solution *)
Lemma max_abs : forall (u : nat -> R) n, (1 <= n)%nat -> exists k, (k < n)%nat /\ forall j, (j < n)%nat -> Rabs (u j) <= Rabs (u k).
Proof.
  intros u n. induction n as [|n IH]; intros N; [lia|]. destruct n as [|n].
  - exists 0%nat. split; [lia|]. intros j J. replace j with 0%nat by lia. lra.
  - destruct IH as (k & K & M); [lia|]. destruct (Rle_dec (Rabs (u k)) (Rabs (u (S n)))) as [L|L].
    + exists (S n). split; [lia|]. intros j J. destruct (Nat.eq_dec j (S n)) as [->|NE]; [lra|]. specialize (M j ltac:(lia)). lra.
    + exists k. split; [lia|]. intros j J. destruct (Nat.eq_dec j (S n)) as [->|NE]; [lra|]. apply M. lia.
Qed.
Lemma dominated : forall (u : nat -> R) n,
  (forall k, (k < n)%nat -> u k = 0 \/ exists i j, (i < n)%nat /\ (j < n)%nat /\ u i + 4 * u k + u j = 0) ->
  forall k, (k < n)%nat -> u k = 0.
Proof.
  intros u n H k K. destruct (max_abs u n ltac:(lia)) as (m & M & X).
  assert (Z0 : Rabs (u m) = 0).
  { destruct (H m M) as [->|(i & j & I & J & E)]; [apply Rabs_R0|]. pose proof (X i I). pose proof (X j J).
    revert H0 H1. unfold Rabs. repeat destruct (Rcase_abs _); lra. }
  specialize (X k K). revert X. rewrite Z0. unfold Rabs. destruct (Rcase_abs _); lra.
Qed.

Section one.
Variables (n : nat) (bc : Z) (mn mx : R) (f : nat -> R) (F F1 F2 : R -> R).
Hypothesis EN : enough n bc.
Hypothesis MM : mn < mx.
Hypothesis SP : spline_interpolant n bc mn mx f F F1 F2.
Definition hh := (mx - mn) / INR (cells n bc).
Lemma cells_pos : 1 <= INR (cells n bc).
Proof. change 1 with (INR 1). apply le_INR. unfold cells. destruct EN as [[-> ?]|[-> ?]]; cbn; lia. Qed.
Lemma hh_pos : 0 < hh.
Proof. pose proof cells_pos. apply Rdiv_lt_0_compat; lra. Qed.
Definition node (k : nat) : R := mn + INR k * hh.
Definition cellable (k : nat) : Prop := (k < cells n bc)%nat \/ bc = PERIODICBC.
Lemma node_wrap : forall k q t, bc = PERIODICBC -> mn + (INR (k + q * n) + t) * hh = mn + (INR k + t) * hh + INR q * (mx - mn).
Proof.
  intros k q t B. rewrite plus_INR, mult_INR. replace (mx - mn) with (INR n * hh); [ring|].
  unfold hh. pose proof cells_pos as H. revert H. unfold cells. rewrite B. cbn [Z.eqb PERIODICBC NATURALBC]. intros. field. lra.
Qed.
Lemma per_shift : bc = PERIODICBC -> forall q x, F (x + INR q * (mx - mn)) = F x /\ F1 (x + INR q * (mx - mn)) = F1 x /\ F2 (x + INR q * (mx - mn)) = F2 x.
Proof.
  intros B q x. destruct SP as (_ & _ & _ & _ & P). specialize (P B). induction q.
  - cbn [INR]. rewrite Rmult_0_l, Rplus_0_r. auto.
  - rewrite S_INR. replace (x + (INR q + 1) * (mx - mn)) with (x + INR q * (mx - mn) + (mx - mn)) by ring.
    destruct (P (x + INR q * (mx - mn))) as (-> & -> & ->). exact IHq.
Qed.
Lemma cell_any : forall k, cellable k -> exists c0 c1 c2 c3, forall t, 0 <= t <= 1 ->
     F (mn + (INR k + t) * hh) = c0 + c1 * t + c2 * t ^ 2 + c3 * t ^ 3 /\
     F1 (mn + (INR k + t) * hh) = (c1 + 2 * c2 * t + 3 * c3 * t ^ 2) / hh /\
     F2 (mn + (INR k + t) * hh) = (2 * c2 + 6 * c3 * t) / (hh * hh).
Proof.
  intros k [K|B]; destruct SP as (_ & C & _).
  - apply C; auto.
  - assert (N : (n <> 0)%nat) by (destruct EN as [[? _]|[_ ?]]; [subst; discriminate|lia]).
    destruct (C (k mod n)%nat) as (c0 & c1 & c2 & c3 & H). { unfold cells. rewrite B. cbn. now apply Nat.mod_upper_bound. }
    exists c0, c1, c2, c3. intros t T. replace k with (k mod n + k / n * n)%nat by (rewrite (Nat.div_mod k n) at 3 by auto; lia).
    rewrite node_wrap by auto. destruct (per_shift B (k / n) (mn + (INR (k mod n) + t) * hh)) as (-> & -> & ->). apply H. auto.
Qed.
(** inside a cell the function is given by the values and the second derivatives at its two nodes *)
Lemma cell_form : forall k t, cellable k -> 0 <= t <= 1 ->
  F (mn + (INR k + t) * hh) = E0 hh (F (node k)) (F (node (k + 1))) (F2 (node k)) (F2 (node (k + 1))) t /\
  F1 (mn + (INR k + t) * hh) = E1 hh (F (node k)) (F (node (k + 1))) (F2 (node k)) (F2 (node (k + 1))) t.
Proof.
  intros k t K T. destruct (cell_any k K) as (c0 & c1 & c2 & c3 & H). pose proof hh_pos as P.
  destruct (H t T) as (-> & -> & _). destruct (H 0 ltac:(lra)) as (A & _ & B). destruct (H 1 ltac:(lra)) as (A' & _ & B').
  unfold node. rewrite plus_INR. cbn [INR]. rewrite Rplus_0_r in A, B. rewrite A, A', B, B'. unfold E0, E1. split; field; lra.
Qed.
Lemma relation : forall k, cellable k -> cellable (k + 1) ->
  F2 (node k) + 4 * F2 (node (k + 1)) + F2 (node (k + 2)) = 6 / (hh * hh) * (F (node (k + 2)) - 2 * F (node (k + 1)) + F (node k)).
Proof.
  intros k K K'. destruct (cell_form k 1 K ltac:(lra)) as [_ A]. destruct (cell_form (k + 1) 0 K' ltac:(lra)) as [_ B].
  rewrite plus_INR in B. cbn [INR] in B. rewrite Rplus_0_r in B. rewrite A in B. replace (k + 1 + 1)%nat with (k + 2)%nat in B by lia.
  pose proof hh_pos as P. unfold E1 in B.
  set (a := F (node k)) in *. set (b := F (node (k + 1))) in *. set (c := F (node (k + 2))) in *.
  set (u := F2 (node k)) in *. set (v := F2 (node (k + 1))) in *. set (w := F2 (node (k + 2))) in *.
  apply (Rmult_eq_reg_l (hh / 6)); [|lra]. apply (f_equal (fun z => z)) in B.
  transitivity ((c - a - 2 * b + 2 * a) / hh); [|field; lra].
  transitivity ((b - a) / hh + hh / 6 * ((1 - 3 * (1 - 1) ^ 2) * u + (3 * 1 ^ 2 - 1) * v) - (b - a) / hh + hh / 6 * (2 * v + w)); [field; lra|].
  rewrite B. field. lra.
Qed.
Lemma node_data : forall k, (k < n)%nat -> F (node k) = f k.
Proof. intros k K. destruct SP as (D & _). apply D. auto. Qed.
Lemma node_per : forall k q, bc = PERIODICBC -> F (node (k + q * n)) = F (node k) /\ F2 (node (k + q * n)) = F2 (node k).
Proof.
  intros k q B. unfold node. pose proof (node_wrap k q 0 B) as H. rewrite !Rplus_0_r in H. rewrite H. split; apply per_shift; auto.
Qed.
Lemma ends : bc = NATURALBC -> F2 (node 0) = 0 /\ F2 (node (n - 1)) = 0.
Proof.
  intros B. destruct SP as (_ & _ & _ & E & _). destruct (E B) as [E1 E2]. pose proof cells_pos as P.
  replace (node 0) with mn by (unfold node; cbn; ring). replace (node (n - 1)) with mx; auto.
  unfold node, hh. revert P. unfold cells. rewrite B. cbn [Z.eqb NATURALBC]. intros. field. lra.
Qed.
End one.

Theorem spline_unique : forall n bc mn mx f F F1 F2 G G1 G2, enough n bc -> mn < mx ->
  spline_interpolant n bc mn mx f F F1 F2 -> spline_interpolant n bc mn mx f G G1 G2 ->
  forall x, mn <= x <= mx -> F x = G x.
Proof.
  intros n bc mn mx f F F1 F2 G G1 G2 EN MM SF SG x X.
  set (nd := node n bc mn mx). set (u := fun k => F2 (nd k) - G2 (nd k)).
  assert (NP : (2 <= n)%nat) by (destruct EN as [[_ ?]|[_ ?]]; lia).
  assert (U : forall k, (k < n)%nat -> u k = 0).
  { apply dominated. intros k K. pose proof EN as [[B N]|[B N]].
    - destruct (ends n bc mn mx f F F1 F2 EN SF B) as [A1 A2]. destruct (ends n bc mn mx f G G1 G2 EN SG B) as [A3 A4]. fold nd in A1, A2, A3, A4.
      destruct (Nat.eq_dec k 0) as [->|K0]; [left; unfold u; lra|].
      destruct (Nat.eq_dec k (n - 1)) as [->|K1]; [left; unfold u; lra|]. right. exists (k - 1)%nat, (k + 1)%nat. split; [lia|]. split; [lia|].
      assert (C : cellable n bc (k - 1) /\ cellable n bc (k - 1 + 1)) by (unfold cellable, cells; rewrite B; cbn; lia). destruct C as [C1 C2].
      pose proof (relation n bc mn mx f F F1 F2 EN MM SF (k - 1) C1 C2) as RF. pose proof (relation n bc mn mx f G G1 G2 EN MM SG (k - 1) C1 C2) as RG.
      fold nd in RF, RG. replace (k - 1 + 1)%nat with k in * by lia. replace (k - 1 + 2)%nat with (k + 1)%nat in * by lia. unfold nd in RF, RG.
      rewrite !(node_data n bc mn mx f F F1 F2 SF) in RF by lia. rewrite !(node_data n bc mn mx f G G1 G2 SG) in RG by lia. fold nd in RF, RG. unfold u. lra.
    - right. assert (C : forall j, cellable n bc j) by (right; auto).
      pose proof (relation n bc mn mx f F F1 F2 EN MM SF (k + n - 1) (C _) (C _)) as RF. pose proof (relation n bc mn mx f G G1 G2 EN MM SG (k + n - 1) (C _) (C _)) as RG.
      assert (NF : forall j, F (nd j) = f (j mod n)%nat /\ G (nd j) = f (j mod n)%nat /\ F2 (nd j) = F2 (nd (j mod n)%nat) /\ G2 (nd j) = G2 (nd (j mod n)%nat)).
      { intros j. assert (M : (j mod n < n)%nat) by (apply Nat.mod_upper_bound; lia).
        assert (J : j = (j mod n + j / n * n)%nat) by (rewrite (Nat.div_mod j n) at 1 by lia; lia).
        destruct (node_per n bc mn mx f F F1 F2 EN SF (j mod n) (j / n) B) as [P1 P2].
        destruct (node_per n bc mn mx f G G1 G2 EN SG (j mod n) (j / n) B) as [P3 P4]. rewrite <- J in P1, P2, P3, P4. fold nd in P1, P2, P3, P4.
        repeat split; auto; [rewrite P1; apply (node_data n bc mn mx f F F1 F2 SF) | rewrite P3; apply (node_data n bc mn mx f G G1 G2 SG)]; auto. }
      fold nd in RF, RG. destruct (NF (k + n - 1)%nat) as (A1 & A2 & A3 & A4). destruct (NF (k + n - 1 + 1)%nat) as (B1 & B2 & B3 & B4).
      destruct (NF (k + n - 1 + 2)%nat) as (D1 & D2 & D3 & D4). rewrite A1, A3, B1, B3, D1, D3 in RF. rewrite A2, A4, B2, B4, D2, D4 in RG.
      assert (KK : ((k + n - 1 + 1) mod n = k)%nat).
      { replace (k + n - 1 + 1)%nat with (k + 1 * n)%nat by lia. rewrite Nat.mod_add by lia. apply Nat.mod_small. auto. }
      rewrite KK in RF, RG. exists ((k + n - 1) mod n)%nat, ((k + n - 1 + 2) mod n)%nat.
      split; [apply Nat.mod_upper_bound; lia|]. split; [apply Nat.mod_upper_bound; lia|]. unfold u. lra. }
  (* the cell of x *)
  set (a := mk_axis (Z.of_nat n) bc mn mx).
  assert (O : axis_ok a) by (apply mk_axis_ok; auto; destruct EN as [[-> ?]|[-> ?]]; [left|right]; split; auto; lia).
  pose proof (hh_pos n bc mn mx f F F1 F2 EN MM SF) as HP.
  assert (CE : exists k t, cellable n bc k /\ 0 <= t <= 1 /\ x = mn + (INR k + t) * hh n bc mn mx).
  { assert (GH : agrid a = hh n bc mn mx).
    { unfold a, hh, cells. cbn [agrid mk_axis]. unfold grid_step. destruct EN as [[-> ?]|[-> ?]]; cbn [Z.eqb NATURALBC PERIODICBC].
      - rewrite Z.mul_1_l, minus_IZR, <- INR_IZR_INZ, minus_INR by lia. reflexivity.
      - rewrite Z.mul_0_r, Z.sub_0_r, <- INR_IZR_INZ. reflexivity. }
    destruct (on_cell_ex a x O) as (i & i' & t & T & [(B & (I1 & I2 & I3) & E)|(B & k & _ & _ & E)]). { intros _. exact X. }
    - exists (Z.to_nat i), t. change (abc a) with bc in B. split; [left; unfold cells; rewrite B; cbn in *; lia|]. split; auto.
      rewrite INR_IZR_INZ, Z2Nat.id by lia. rewrite <- GH. exact E.
    - change (abc a) with bc in B. change (amin a) with mn in E. rewrite GH in E. destruct (Z_le_gt_dec 0 k) as [K|K].
      + exists (Z.to_nat k), t. split; [right; auto|]. split; auto. rewrite INR_IZR_INZ, Z2Nat.id by lia. exact E.
      + assert (KI : IZR k <= -1) by (apply IZR_le; lia). exists 0%nat, 0. split; [right; auto|]. split; [lra|]. cbn [INR].
        assert ((IZR k + t) * hh n bc mn mx <= 0) by nra. lra. }
  destruct CE as (k & t & C & T & ->). rewrite (proj1 (cell_form n bc mn mx f F F1 F2 EN MM SF k t C T)), (proj1 (cell_form n bc mn mx f G G1 G2 EN MM SG k t C T)).
  assert (V : forall j, (j < n)%nat \/ bc = PERIODICBC -> F (nd j) = G (nd j) /\ F2 (nd j) = G2 (nd j)).
  { assert (V0 : forall j, (j < n)%nat -> F (nd j) = G (nd j) /\ F2 (nd j) = G2 (nd j)).
    { intros j J. specialize (U j J). unfold u in U. split; [|lra]. unfold nd.
      rewrite (node_data n bc mn mx f F F1 F2 SF), (node_data n bc mn mx f G G1 G2 SG) by auto. reflexivity. }
    intros j [J|B]; auto. assert (M : (j mod n < n)%nat) by (apply Nat.mod_upper_bound; lia).
    assert (J : j = (j mod n + j / n * n)%nat) by (rewrite (Nat.div_mod j n) at 1 by lia; lia).
    destruct (node_per n bc mn mx f F F1 F2 EN SF (j mod n) (j / n) B) as [P1 P2].
    destruct (node_per n bc mn mx f G G1 G2 EN SG (j mod n) (j / n) B) as [P3 P4]. rewrite <- J in P1, P2, P3, P4. unfold nd. rewrite P1, P2, P3, P4.
    apply V0. auto. }
  assert (VK : ((k < n)%nat \/ bc = PERIODICBC) /\ ((k + 1 < n)%nat \/ bc = PERIODICBC)).
  { destruct C as [C|C]; auto. unfold cells in C. pose proof EN as [[B N]|[B N]]; rewrite B in C; cbn in C; [|auto]. split; left; lia. }
  destruct VK as [V1 V2]. fold nd. destruct (V k V1) as [-> ->]. destruct (V (k + 1)%nat V2) as [-> ->]. reflexivity.
Qed.
