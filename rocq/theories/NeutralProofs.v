(** Specifications and proofs about the neutral inputs. *)
From Coq Require Import Reals List ZArith Bool Lra Lia.
From Verif Require Import AxisModel AxisProofs LintModel LintProofs ErrorModel ErrorProofs PlasmaProofs NeutralModel.
Import ListNotations.
Local Open Scope R_scope.

(** ** Evaluation of all species *)
Lemma all_good : forall n ev l ef old (v : nat -> R), (forall i, (i < n)%nat -> ev i = Val (v i)) -> exists f, eval_all n ev l ef old = Some (0%Z, f) /\ forall i, (i < n)%nat -> f i = v i.
Proof.
  intros n ev l ef old v H. unfold eval_all.
  rewrite (proj1 (not_true_iff_false (existsb (fun i => isO (ev i)) (seq 0 n)))); [rewrite (proj1 (not_true_iff_false (existsb (fun i => isE (ev i)) (seq 0 n))))|].
  - eexists. split; [reflexivity|]. intros i I. cbv beta. rewrite (proj2 (Nat.ltb_lt i n) I), H by auto. reflexivity.
  - intros C. apply existsb_exists in C. destruct C as (i & I & E). apply in_seq in I. rewrite H in E by lia. discriminate.
  - intros C. apply existsb_exists in C. destruct C as (i & I & E). apply in_seq in I. rewrite H in E by lia. discriminate.
Qed.
Lemma all_err : forall n ev l ef old, (0 < n)%nat -> (0 <= l < 8388608)%Z -> (forall i, (i < n)%nat -> ev i = Err) ->
  exists e f, eval_all n ev l ef old = Some (e, f) /\ e <> 0%Z /\ forall i, f i = old i.
Proof.
  intros n ev l ef old N L H. unfold eval_all.
  rewrite (proj1 (not_true_iff_false (existsb (fun i => isO (ev i)) (seq 0 n)))).
  - rewrite (proj2 (existsb_exists _ _)) by (exists 0%nat; split; [apply in_seq; lia|rewrite H by lia; reflexivity]). eexists _, _. split; [reflexivity|]. split; [now apply raise_nonzero|].
    intros i. cbv beta. destruct (i <? n)%nat eqn:I; [|reflexivity]. apply Nat.ltb_lt in I. now rewrite H.
  - intros C. apply existsb_exists in C. destruct C as (i & I & E). apply in_seq in I. rewrite H in E by lia. discriminate.
Qed.
Lemma all_oob : forall n ev l ef old, (0 < n)%nat -> ev 0%nat = Oob -> eval_all n ev l ef old = None.
Proof. intros n ev l ef old N H. unfold eval_all. rewrite (proj2 (existsb_exists _ _)); [reflexivity|]. exists 0%nat. split; [apply in_seq; lia|now rewrite H]. Qed.

(** ** 1D *)
Definition ugrid (n : Z) (mn mx : R) (k : Z) : R := mn + IZR k * ((mx - mn) / IZR (n - 1)).
Section D1.
Context (n : Z) (mn mx : R) (src : Z -> R).
Hypothesis N : (2 <= n)%Z.
Hypothesis M : mn < mx.
Definition tb1 := linint1D_init (Arr n src) n NATURALBC mn mx.
Lemma tb1_ok : axis_ok (l1x tb1).
Proof. apply mk_axis_ok; auto. Qed.
Lemma step_pos : 0 < (mx - mn) / IZR (n - 1).
Proof. apply Rmult_lt_0_compat; [lra|]. apply Rinv_0_lt_compat. apply IZR_lt. lia. Qed.
Lemma tb1_in : forall x, mn <= x < mx -> exists v, linint1D_eval_f tb1 x = Val v /\ interpolates (ugrid n mn mx) n src x v.
Proof.
  intros x X. pose proof tb1_ok as O. pose proof step_pos as P. assert (NZ : IZR (n - 1) <> 0) by (assert (0 < IZR (n - 1)) by (apply IZR_lt; lia); lra).
  assert (G : agrid (l1x tb1) = (mx - mn) / IZR (n - 1)) by reflexivity.
  destruct (on_cell_ex (l1x tb1) x O) as (i & i' & t & C); [intros _; cbn; lra|].
  (* choose the cell with t < 1 *)
  assert (C' : exists i t, 0 <= t < 1 /\ (0 <= i /\ i + 1 < n)%Z /\ x = mn + (IZR i + t) * ((mx - mn) / IZR (n - 1))).
  { destruct C as [T [(B & (I & I1 & I2) & E)|(B & _)]]; [|discriminate]. rewrite G in E. change (amin (l1x tb1)) with mn in E. change (an (l1x tb1)) with n in I2.
    destruct (Req_dec t 1) as [T1|T1]; [|exists i, t; split; [lra|]; split; [lia|exact E]].
    exists (i + 1)%Z, 0. split; [lra|]. rewrite plus_IZR. subst t. split; [|rewrite E; ring].
    assert (i + 1 <> n - 1)%Z; [|lia]. intros Q. assert (IZR i + 1 = IZR (n - 1)) by (rewrite <- Q, plus_IZR; ring). rewrite H in E.
    assert (IZR (n - 1) * ((mx - mn) / IZR (n - 1)) = mx - mn) by (field; auto). lra. }
  destruct C' as (k & u & U & K & E). assert (CC : on_cell (l1x tb1) x k (k + 1) u).
  { split; [lra|]. left. split; [reflexivity|]. split; [change (an (l1x tb1)) with n; lia|]. rewrite G. exact E. }
  exists (line (src k) (src (k + 1)%Z) u). split.
  - rewrite (lint1_cell tb1 O eq_refl x k (k + 1) u CC); [reflexivity|]. intros _. cbn. lra.
  - exists k. split; [lia|]. unfold ugrid. rewrite plus_IZR. set (h := (mx - mn) / IZR (n - 1)) in *. split; [rewrite E; split; nra|]. unfold line. rewrite E. ring.
Qed.
Lemma tb1_out : forall x, ~ (mn <= x <= mx) -> linint1D_eval_f tb1 x = Err.
Proof. intros x X. apply lint1_err; [apply tb1_ok|]. split; [reflexivity|exact X]. Qed.
Lemma tb1_end : linint1D_eval_f tb1 mx = Oob.
Proof. exact (lint1_end tb1 tb1_ok eq_refl eq_refl). Qed.
End D1.
(** ** 3D: trilinear value on the cells containing the point; the table is stored with R
    fastest, then z, then phi *)
Definition trilinear (ar ap az : axis) (tab : Z -> Z -> Z -> R) (r phi z v : R) : Prop :=
  exists i i' t j j' u k k' w, on_cell ar r i i' t /\ on_cell ap phi j j' u /\ on_cell az z k k' w /\
  v = line (line (line (tab i j k) (tab i' j k) t) (line (tab i j k') (tab i' j k') t) w)
           (line (line (tab i j' k) (tab i' j' k) t) (line (tab i j' k') (tab i' j' k') t) w) u.
Definition entry (nr nz : Z) (src : Z -> R) (i j k : Z) : R := src ((j * nz + k) * nr + i)%Z.
Section D3.
Context (nr nphi nz : Z) (rmn rmx pmn pmx zmn zmx : R) (src : Z -> R).
Hypothesis NR : (2 <= nr)%Z.
Hypothesis NP : (1 <= nphi)%Z.
Hypothesis NZ : (2 <= nz)%Z.
Hypothesis MR : rmn < rmx.
Hypothesis MP : pmn < pmx.
Hypothesis MZ : zmn < zmx.
Definition tb3 := linint3D_init (Arr (nr * nphi * nz) src) nr nphi nz NATURALBC PERIODICBC NATURALBC rmn rmx pmn pmx zmn zmx.
Lemma tb3_x : axis_ok (l3x tb3). Proof. apply mk_axis_ok; auto. Qed.
Lemma tb3_y : axis_ok (l3y tb3). Proof. apply mk_axis_ok; auto. Qed.
Lemma tb3_z : axis_ok (l3z tb3). Proof. apply mk_axis_ok; auto. Qed.
Lemma tb3_in : forall r phi z, rmn <= r < rmx -> zmn <= z < zmx -> exists v, linint3D_eval_f tb3 r phi z = Val v /\
  trilinear (mk_axis nr NATURALBC rmn rmx) (mk_axis nphi PERIODICBC pmn pmx) (mk_axis nz NATURALBC zmn zmx) (entry nr nz src) r phi z v.
Proof.
  intros r phi z HR HZ.
  destruct (on_cell_ex (l3x tb3) r tb3_x) as (i & i' & t & C); [intros _; cbn; lra|].
  destruct (on_cell_ex (l3y tb3) phi tb3_y) as (j & j' & u & D); [intros; discriminate|].
  destruct (on_cell_ex (l3z tb3) z tb3_z) as (k & k' & w & E); [intros _; cbn; lra|].
  eexists. split.
  - apply (lint3_cell tb3 tb3_x tb3_y tb3_z eq_refl r phi z i i' t j j' u k k' w); auto; intros B; cbn; try lra; discriminate.
  - exists i, i', t, j, j', u, k, k', w. split; [exact C|]. split; [exact D|]. split; [exact E|]. reflexivity.
Qed.
Lemma tb3_out : forall r phi z, ~ (rmn <= r <= rmx) \/ ~ (zmn <= z <= zmx) -> linint3D_eval_f tb3 r phi z = Err.
Proof.
  intros r phi z H. apply lint3_err; [apply tb3_x|apply tb3_y|apply tb3_z|]. destruct H as [H|H]; [left|right; right]; split; try reflexivity; exact H.
Qed.
End D3.

(** ** Statements for a whole input *)
Section N1.
Context (n : Z) (mn mx : R) (nsp : nat) (density temperature : Z -> R).
Hypothesis N : (2 <= n)%Z.
Hypothesis M : mn < mx.
Definition d1 := N0_1D_init n mn mx nsp density temperature.
Lemma n1_in : forall rho old, mn <= rho < mx -> exists f g, N0_1D_eval_n0 d1 rho old = Some (0%Z, f) /\ N0_1D_eval_t0 d1 rho old = Some (0%Z, g) /\
  forall s, (s < nsp)%nat -> interpolates (ugrid n mn mx) n density rho (f s) /\ interpolates (ugrid n mn mx) n temperature rho (g s).
Proof.
  intros rho old X. destruct (tb1_in n mn mx density N M rho X) as (v & V & I). destruct (tb1_in n mn mx temperature N M rho X) as (w & W & J).
  destruct (all_good nsp (fun i => linint1D_eval_f (n1_n0 d1 i) rho) 120 EF_N0_1D old (fun _ => v) (fun i _ => V)) as (f & F & F').
  destruct (all_good nsp (fun i => linint1D_eval_f (n1_t0 d1 i) rho) 146 EF_N0_1D old (fun _ => w) (fun i _ => W)) as (g & G & G').
  exists f, g. split; [exact F|]. split; [exact G|]. intros s S. rewrite F', G' by auto. auto.
Qed.
Lemma n1_out : forall rho old, (0 < nsp)%nat -> ~ (mn <= rho <= mx) ->
  (exists e f, N0_1D_eval_n0 d1 rho old = Some (e, f) /\ e <> 0%Z /\ forall i, f i = old i) /\ exists e f, N0_1D_eval_t0 d1 rho old = Some (e, f) /\ e <> 0%Z /\ forall i, f i = old i.
Proof. intros rho old P X. split; apply all_err; auto; try lia; intros i I; now apply tb1_out. Qed.
Lemma n1_end : forall old, (0 < nsp)%nat -> N0_1D_eval_n0 d1 mx old = None /\ N0_1D_eval_t0 d1 mx old = None.
Proof. intros old P. split; apply all_oob; auto; now apply tb1_end. Qed.
End N1.
Section N3.
Context (nr nphi nz : Z) (rmn rmx pmn pmx zmn zmx : R) (nsp : nat) (density temperature : Z -> R).
Hypothesis NR : (2 <= nr)%Z.
Hypothesis NP : (1 <= nphi)%Z.
Hypothesis NZ : (2 <= nz)%Z.
Hypothesis MR : rmn < rmx.
Hypothesis MP : pmn < pmx.
Hypothesis MZ : zmn < zmx.
Definition d3 := N0_3D_init nr rmn rmx nphi pmn pmx nz zmn zmx nsp density temperature.
Definition tri_of (src : Z -> R) := trilinear (mk_axis nr NATURALBC rmn rmx) (mk_axis nphi PERIODICBC pmn pmx) (mk_axis nz NATURALBC zmn zmx) (entry nr nz src).
Lemma n3_in : forall r phi z old, rmn <= r < rmx -> zmn <= z < zmx -> exists f g, N0_3D_eval_n0 d3 r phi z old = Some (0%Z, f) /\ N0_3D_eval_t0 d3 r phi z old = Some (0%Z, g) /\
  forall s, (s < nsp)%nat -> tri_of density r phi z (f s) /\ tri_of temperature r phi z (g s).
Proof.
  intros r phi z old X Y. destruct (tb3_in nr nphi nz rmn rmx pmn pmx zmn zmx density NR NP NZ MR MP MZ r phi z X Y) as (v & V & I).
  destruct (tb3_in nr nphi nz rmn rmx pmn pmx zmn zmx temperature NR NP NZ MR MP MZ r phi z X Y) as (w & W & J).
  destruct (all_good nsp (fun i => linint3D_eval_f (n3_n0 d3 i) r phi z) 124 EF_N0_3D old (fun _ => v) (fun i _ => V)) as (f & F & F').
  destruct (all_good nsp (fun i => linint3D_eval_f (n3_t0 d3 i) r phi z) 152 EF_N0_3D old (fun _ => w) (fun i _ => W)) as (g & G & G').
  exists f, g. split; [exact F|]. split; [exact G|]. intros s S. rewrite F', G' by auto. auto.
Qed.
Lemma n3_out : forall r phi z old, (0 < nsp)%nat -> ~ (rmn <= r <= rmx) \/ ~ (zmn <= z <= zmx) ->
  (exists e f, N0_3D_eval_n0 d3 r phi z old = Some (e, f) /\ e <> 0%Z /\ forall i, f i = old i) /\ exists e f, N0_3D_eval_t0 d3 r phi z old = Some (e, f) /\ e <> 0%Z /\ forall i, f i = old i.
Proof. intros r phi z old P X. split; apply all_err; auto; try lia; intros i I; now apply tb3_out. Qed.
End N3.

(** ** Releasing: a list of calls is right for a list of blocks when every block is freed
    once and nothing else is *)
Definition releases (blocks frees : list nat) : Prop := NoDup frees /\ forall b, In b frees <-> In b blocks.
Lemma free_iff : forall n, releases (init_mallocs n) (free_calls n (init_blocks n)) <-> (n <= 1)%nat.
Proof.
  intros n. split.
  - intros [ND _]. destruct n as [|[|n]]; [lia|lia|]. exfalso. unfold free_calls in ND. cbn in ND. do 3 (apply NoDup_cons_iff in ND; destruct ND as [_ ND]). apply NoDup_cons_iff in ND. destruct ND as [A _]. apply A. cbn. auto.
  - intros L. assert (n = 0 \/ n = 1)%nat as [-> | ->] by lia; split; cbn; try (repeat constructor; cbn; lia); intros b; lia.
Qed.
(** what is wrong for more species: the first pair is freed n times and the rest never *)
Lemma free_count : forall n i, (i < n)%nat -> count_occ Nat.eq_dec (free_calls n (init_blocks n)) (b_n0c (init_blocks n) i) = (if (i =? 0)%nat then n else 0)%nat.
Proof.
  intros n i I. unfold free_calls. rewrite !count_occ_app. cbn [init_blocks b_n0c b_t0c b_anum b_znum b_maxw b_n0 b_t0].
  rewrite (proj1 (count_occ_not_In Nat.eq_dec [0; 1; 2]%nat _)) by (cbn; lia). rewrite (proj1 (count_occ_not_In Nat.eq_dec [3; 4]%nat _)) by (cbn; lia).
  assert (F : forall l : list nat, count_occ Nat.eq_dec (flat_map (fun _ => [5 + 2 * 0; 6 + 2 * 0]%nat) l) (5 + 2 * i)%nat = (if (i =? 0)%nat then length l else 0)%nat).
  { induction l as [|a l IH]; [cbn; now destruct (i =? 0)%nat|]. cbn [flat_map]. rewrite count_occ_app, IH. destruct (Nat.eqb_spec i 0) as [->|Q]; [reflexivity|].
    rewrite (proj1 (count_occ_not_In Nat.eq_dec _ _)); [reflexivity|]. cbn. lia. }
  rewrite F, seq_length. destruct (i =? 0)%nat; lia.
Qed.

(** ** Dispatch *)
Lemma first_default_spec : forall v r e f, first_default v r = Some (e, f) ->
  exists f0, r = Some (e, f0) /\ ((e = 0%Z /\ f = f0) \/ (e <> 0%Z /\ f 0%nat = v /\ forall i, (0 < i)%nat -> f i = f0 i)).
Proof.
  intros v [[e0 f0]|] e f H; [|discriminate]. cbn in H. injection H as <- <-. exists f0. split; [reflexivity|]. destruct (Z.eqb_spec e0 0) as [E|E]; [left; auto|right]. repeat split; auto.
  intros [|i] I; [lia|reflexivity].
Qed.
