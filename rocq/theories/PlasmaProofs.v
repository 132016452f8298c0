(** Proofs about plasma profiles. *)
From Coq Require Import Reals List ZArith Bool Lra Lia Psatz.
From Verif Require Import AxisModel AxisProofs Glue LintProofs SplineModel SplineProofs SplineUniq SplineProps ErrorModel ErrorProofs PlasmaModel.
Import ListNotations.
Local Open Scope R_scope.

(** ** Specification *)
(** [v] is the value at x of the piecewise linear curve through (g k, tab k) *)
Definition interpolates (g : Z -> R) (n : Z) (tab : Z -> R) (x v : R) : Prop :=
  exists k, (0 <= k /\ k + 1 < n)%Z /\ g k <= x < g (k + 1)%Z /\ (v - tab k) * (g (k + 1)%Z - g k) = (tab (k + 1)%Z - tab k) * (x - g k).
Definition increasing (g : Z -> R) (n : Z) : Prop := forall i, (0 <= i)%Z -> (i + 1 < n)%Z -> g i < g (i + 1)%Z.
Lemma increasing_lt : forall g n, increasing g n -> forall i j, (0 <= i < j)%Z -> (j < n)%Z -> g i < g j.
Proof.
  intros g n I i j IJ JN. remember (Z.to_nat (j - i - 1)) as m eqn:M. revert j IJ JN M.
  induction m as [|m IH]; intros j IJ JN M.
  - replace j with (i + 1)%Z by lia. apply I; lia.
  - assert (g i < g (j - 1)%Z) by (apply IH; lia). assert (L : g (j - 1)%Z < g (j - 1 + 1)%Z) by (apply I; lia). replace (j - 1 + 1)%Z with j in L by lia. lra.
Qed.
Lemma cell_unique : forall g n, increasing g n -> forall k k' x, (0 <= k /\ k + 1 < n)%Z -> (0 <= k' /\ k' + 1 < n)%Z -> g k <= x < g (k + 1)%Z -> g k' <= x < g (k' + 1)%Z -> k = k'.
Proof.
  intros g n I k k' x K K' X X'.
  assert (W : forall a b, (0 <= a /\ a + 1 < n)%Z -> (0 <= b /\ b + 1 < n)%Z -> g a <= x < g (a + 1)%Z -> g b <= x < g (b + 1)%Z -> (a < b)%Z -> False).
  { intros a b A B XA XB L. destruct (Z.eq_dec (a + 1) b) as [<-|NE]; [lra|]. assert (g (a + 1)%Z < g b) by (apply (increasing_lt g n I); lia). lra. }
  destruct (Z.lt_trichotomy k k') as [L|[E|L]]; auto; exfalso; eauto.
Qed.
Lemma interpolates_unique : forall g n tab x v w, increasing g n -> interpolates g n tab x v -> interpolates g n tab x w -> v = w.
Proof.
  intros g n tab x v w I (k & K & X & E) (k' & K' & X' & E'). assert (EQ : k = k') by (eapply cell_unique; eauto). subst k'.
  assert (D : (v - w) * (g (k + 1)%Z - g k) = 0) by nra. apply Rmult_integral in D. lra.
Qed.
Lemma interpolates_between : forall g n tab x v, interpolates g n tab x v -> exists k, (0 <= k /\ k + 1 < n)%Z /\ g k <= x < g (k + 1)%Z /\ Rmin (tab k) (tab (k + 1)%Z) <= v <= Rmax (tab k) (tab (k + 1)%Z).
Proof.
  intros g n tab x v (k & K & X & E). exists k. split; auto. split; auto. set (a := tab k) in *. set (b := tab (k + 1)%Z) in *. set (h := g (k + 1)%Z - g k) in *. set (u := x - g k) in *.
  assert (H : 0 < h) by (unfold h; lra). assert (U : 0 <= u < h) by (unfold u, h; lra).
  assert (V : v = a + (b - a) * (u / h)). { apply (Rmult_eq_reg_r h); [|lra]. replace ((a + (b - a) * (u / h)) * h) with (a * h + (b - a) * u) by (field; lra). nra. }
  assert (T : 0 <= u / h < 1). { split; [unfold Rdiv; apply Rmult_le_pos; [lra|left; apply Rinv_0_lt_compat; lra]|]. apply (Rmult_lt_reg_r h); auto. replace (u / h * h) with u by (field; lra). lra. }
  set (t := u / h) in *. rewrite V. unfold Rmin, Rmax. destruct (Rle_dec a b); nra.
Qed.
Lemma interpolates_node : forall g n tab k v, increasing g n -> (0 <= k /\ k + 1 < n)%Z -> interpolates g n tab (g k) v -> v = tab k.
Proof.
  intros g n tab k v I K (k' & K' & X & E). assert (k' = k) by (eapply (cell_unique g n I k' k (g k)); eauto; split; [lra|apply I; lia]). subst k'.
  rewrite Rminus_eq_0, Rmult_0_r in E. apply Rmult_integral in E. lra.
Qed.
Lemma interpolates_const : forall g n c x v, interpolates g n (fun _ => c) x v -> v = c.
Proof. intros g n c x v (k & K & X & E). rewrite Rminus_eq_0, Rmult_0_l in E. apply Rmult_integral in E. lra. Qed.
Lemma interpolates_ext : forall g n t1 t2 x v, (forall k, (0 <= k < n)%Z -> t1 k = t2 k) -> interpolates g n t1 x v -> interpolates g n t2 x v.
Proof. intros g n t1 t2 x v H (k & K & X & E). exists k. rewrite <- !H by lia. auto. Qed.

(** ** The cell search *)
Lemma scan_spec : forall a v f i, (i <= scan a v f i <= i + Z.of_nat f)%Z /\ (forall k, (i <= k < scan a v f i)%Z -> a k <= v) /\ ((scan a v f i < i + Z.of_nat f)%Z -> v < a (scan a v f i)).
Proof.
  intros a v f. induction f as [|f IH]; intros i; cbn [scan].
  - split; [lia|]. split; [lia|lia].
  - destruct (Rle_dec (a i) v) as [L|L].
    + destruct (IH (i + 1)%Z) as (A & B & C). split; [lia|]. split; [|intros H; apply C; lia]. intros k K. destruct (Z.eq_dec k i) as [->|]; auto. apply B. lia.
    + split; [lia|]. split; [lia|]. intros _. lra.
Qed.
Lemma locate_spec : forall a n v, a 0%Z <= v -> v < a (n - 1)%Z -> (0 < n)%Z -> let i := locate a n v in (0 <= i /\ i + 1 < n)%Z /\ a i <= v < a (i + 1)%Z.
Proof.
  intros a n v L U N i. unfold i, locate. destruct (scan_spec a v (Z.to_nat (n - 1)) 0) as (A & B & C). set (j := scan a v (Z.to_nat (n - 1)) 0) in *.
  assert (J : (1 <= j)%Z). { destruct (Z_lt_ge_dec j 1) as [J|J]; [|lia]. assert (j = 0%Z) by lia. destruct (Z.eq_dec n 1) as [->|NE]; [cbn in U; lra|].
    assert (v < a j) by (apply C; lia). rewrite H in H0. lra. }
  split; [lia|]. replace (j - 1 + 1)%Z with j by lia. split; [apply B; lia|]. destruct (Z_lt_ge_dec j (n - 1)) as [J2|J2]; [apply C; lia|]. replace j with (n - 1)%Z by lia. exact U.
Qed.
Lemma locate_before : forall a n v, v < a 0%Z -> locate a n v = (-1)%Z.
Proof. intros a n v L. unfold locate. destruct (Z.to_nat (n - 1)) as [|f]; cbn [scan]; [lia|]. destruct (Rle_dec (a 0%Z) v); [lra|lia]. Qed.
Lemma locate_after : forall a n v, (2 <= n)%Z -> (forall i, (0 <= i < n - 1)%Z -> a i <= v) -> locate a n v = (n - 2)%Z.
Proof.
  intros a n v N H. unfold locate. destruct (scan_spec a v (Z.to_nat (n - 1)) 0) as (A & B & C). set (j := scan a v (Z.to_nat (n - 1)) 0) in *.
  destruct (Z_lt_ge_dec j (n - 1)) as [L|L]; [|lia]. assert (v < a j) by (apply C; lia). assert (a j <= v) by (apply H; lia). lra.
Qed.
Lemma lin_spec : forall g tab k x, g k < g (k + 1)%Z -> (lin (tab k) (tab (k + 1)%Z) ((x - g k) / (g (k + 1)%Z - g k)) - tab k) * (g (k + 1)%Z - g k) = (tab (k + 1)%Z - tab k) * (x - g k).
Proof. intros g tab k x H. unfold lin. field. lra. Qed.
Lemma inb_true : forall sz f i, (0 <= i < sz)%Z -> inb (Arr sz f) i = true.
Proof. intros. unfold inb. cbn [asize]. apply andb_true_intro. split; [apply Z.leb_le|apply Z.ltb_lt]; lia. Qed.
Lemma rd_ok : forall A a idx (k : pres A), (forall i, In i idx -> (0 <= i < asize a)%Z) -> rd a idx k = k.
Proof. intros A [sz f] idx k H. unfold rd. replace (forallb (inb (Arr sz f)) idx) with true; auto. symmetry. apply forallb_forall. intros i I. apply inb_true. apply H; auto. Qed.
Lemma rd_bad : forall A sz f idx (k : pres A) i, In i idx -> ~ (0 <= i < sz)%Z -> rd (Arr sz f) idx k = Bad.
Proof.
  intros A sz f idx k i I N. unfold rd. replace (forallb (inb (Arr sz f)) idx) with false; auto. symmetry. apply not_true_is_false. intros H. rewrite forallb_forall in H. specialize (H i I).
  unfold inb in H. cbn [asize] in H. apply andb_prop in H. destruct H as [H1 H2]. apply Z.leb_le in H1. apply Z.ltb_lt in H2. lia.
Qed.
Lemma in_range : forall n i, In i (range n) <-> (0 <= i < n)%Z.
Proof.
  intros n i. unfold range. rewrite in_map_iff. split.
  - intros (k & <- & K). apply in_seq in K. lia.
  - intros H. exists (Z.to_nat i). split; [lia|]. apply in_seq. lia.
Qed.
Ltac idx := let i := fresh "i" in let H := fresh "H" in intros i H; cbn -[Z.mul Z.add Z.sub]; cbn [In] in H; repeat (destruct H as [<-|H]); try tauto; try nia.

(** ** plasma_1D *)
Section P1.
Context (nrho nion : Z) (rho Te Ti ne ni vtor : Z -> R).
Let d := plasma_1D_init nrho nion rho Te Ti ne ni vtor.
(** spec: the input tables of species s *)
Definition dens_table (s k : Z) : R := if (s =? 0)%Z then ne k else ni ((s - 1) * nrho + k)%Z.
Definition temp_table (s k : Z) : R := if (s =? 0)%Z then Te k else Ti k.
Definition inside (x : R) : Prop := rho 0%Z <= x < rho (nrho - 1)%Z.
Lemma rho_out_in : forall x, inside x -> rho_out (Arr nrho rho) nrho x = None.
Proof. intros x [A B]. unfold rho_out. cbn [aget]. destruct (Rlt_dec x (rho 0%Z)); [lra|]. destruct (Rle_dec (rho (nrho - 1)%Z) x); [lra|auto]. Qed.
Lemma rho_out_out : forall x, ~ inside x -> exists b, rho_out (Arr nrho rho) nrho x = Some b.
Proof. intros x A. unfold rho_out. cbn [aget]. destruct (Rlt_dec x (rho 0%Z)); eauto. destruct (Rle_dec (rho (nrho - 1)%Z) x); eauto. exfalso. apply A. unfold inside. lra. Qed.
Hypothesis N1 : (1 <= nrho)%Z.
Hypothesis N2 : (0 <= nion)%Z.
Lemma d_dens : forall s k, (0 <= s)%Z -> (0 <= k < nrho)%Z -> aget (p_dens d) (s * nrho + k)%Z = dens_table s k.
Proof.
  intros s k S K. unfold d, plasma_1D_init, dens_table. cbn [p_dens aget]. destruct (Z.eqb_spec s 0) as [->|NE].
  - destruct (Z.ltb_spec (0 * nrho + k) nrho); [|lia]. f_equal.
  - destruct (Z.ltb_spec (s * nrho + k) nrho); [nia|]. f_equal. ring.
Qed.
Lemma d_temp : forall s k, (0 <= s < 2)%Z -> (0 <= k < nrho)%Z -> aget (p_temp d) (s * nrho + k)%Z = temp_table s k.
Proof.
  intros s k S K. unfold d, plasma_1D_init, temp_table. cbn [p_temp aget]. destruct (Z.eqb_spec s 0) as [->|NE].
  - destruct (Z.ltb_spec (0 * nrho + k) nrho); [|lia]. f_equal.
  - assert (s = 1%Z) by lia. subst s. destruct (Z.ltb_spec (1 * nrho + k) nrho); [nia|]. f_equal. ring.
Qed.
Lemma p1_dens : forall x s, (0 <= s <= nion)%Z ->
  (inside x -> exists v, plasma_1D_eval_dens d x s = Good v /\ interpolates rho nrho (dens_table s) x v) /\
  (~ inside x -> exists e, plasma_1D_eval_dens d x s = Fail e /\ e <> 0%Z).
Proof.
  intros x s S. unfold plasma_1D_eval_dens. change (p_rho d) with (Arr nrho rho). change (p_nrho d) with nrho. cbn [aget]. rewrite rd_ok by idx. split.
  - intros I. rewrite rho_out_in by auto. destruct I as [I1 I2]. pose proof (locate_spec rho nrho x I1 I2) as L. cbv zeta in L. set (i := locate rho nrho x) in *. destruct L as [K X]; [lia|].
    rewrite rd_ok by idx. rewrite rd_ok by idx.
    eexists. split; [reflexivity|]. exists i. split; [exact K|]. split; [exact X|].
    replace (s * nrho + i + 1)%Z with (s * nrho + (i + 1))%Z by ring.
    rewrite !d_dens by lia. apply lin_spec. lra.
  - intros O. destruct (rho_out_out x O) as [b ->]. destruct b; eexists; (split; [reflexivity|apply raise_nonzero; lia]).
Qed.
Lemma p1_temp : forall x s, (0 <= s)%Z ->
  (inside x -> exists v, plasma_1D_eval_temp d x s = Good v /\ interpolates rho nrho (temp_table s) x v) /\
  (~ inside x -> exists e, plasma_1D_eval_temp d x s = Fail e /\ e <> 0%Z).
Proof.
  intros x s S. unfold plasma_1D_eval_temp. change (p_rho d) with (Arr nrho rho). change (p_nrho d) with nrho. cbn [aget]. rewrite rd_ok by idx. split.
  - intros I. rewrite rho_out_in by auto. destruct I as [I1 I2]. pose proof (locate_spec rho nrho x I1 I2) as L. cbv zeta in L. set (i := locate rho nrho x) in *. destruct L as [K X]; [lia|].
    set (s' := b2z (0 <? s)). assert (S' : (0 <= s' < 2)%Z) by (unfold s', b2z; destruct (0 <? s)%Z; lia).
    rewrite rd_ok by idx. rewrite rd_ok by idx.
    eexists. split; [reflexivity|]. exists i. split; [exact K|]. split; [exact X|].
    replace (s' * nrho + i + 1)%Z with (s' * nrho + (i + 1))%Z by ring.
    rewrite !d_temp by lia.
    assert (T : forall k, temp_table s' k = temp_table s k). { intros k. unfold temp_table, s', b2z. destruct (Z.ltb_spec 0 s), (Z.eqb_spec s 0); auto; lia. }
    rewrite !T. apply lin_spec. lra.
  - intros O. destruct (rho_out_out x O) as [b ->]. destruct b; eexists; (split; [reflexivity|apply raise_nonzero; lia]).
Qed.
Lemma p1_both : forall x,
  (inside x -> exists f, plasma_1D_eval_densandtemp d x = Good f /\ forall s, (0 <= s <= nion)%Z -> plasma_1D_eval_dens d x s = Good (fst (f s)) /\ plasma_1D_eval_temp d x s = Good (snd (f s))) /\
  (~ inside x -> exists e, plasma_1D_eval_densandtemp d x = Fail e /\ e <> 0%Z).
Proof.
  intros x. unfold plasma_1D_eval_densandtemp. change (p_rho d) with (Arr nrho rho). change (p_nrho d) with nrho. change (p_nsp d) with (nion + 1)%Z. cbn [aget]. rewrite rd_ok by idx. split.
  - intros I. rewrite rho_out_in by auto. assert (I0 := I). destruct I as [I1 I2]. pose proof (locate_spec rho nrho x I1 I2) as L. cbv zeta in L.
    set (i := locate rho nrho x) in *. destruct L as [K X]; [lia|].
    rewrite rd_ok by idx.
    rewrite rd_ok. 2:{ intros j J. apply in_flat_map in J. destruct J as (s & S & J). apply in_range in S. cbn [In] in J. cbn -[Z.mul Z.add Z.sub]; destruct J as [<-|[<-|[]]]; nia. }
    rewrite rd_ok. 2:{ intros j J. apply in_flat_map in J. destruct J as (s & S & J). apply in_range in S. cbn [In] in J. cbn -[Z.mul Z.add Z.sub]; destruct J as [<-|[<-|[]]]; nia. }
    eexists. split; [reflexivity|]. intros s S. cbn [fst snd]. unfold plasma_1D_eval_dens, plasma_1D_eval_temp. change (p_rho d) with (Arr nrho rho). change (p_nrho d) with nrho. cbn [aget].
    split.
    + rewrite rd_ok by idx. rewrite rho_out_in by auto. fold i. rewrite rd_ok by idx. rewrite rd_ok by idx. reflexivity.
    + rewrite rd_ok by idx. rewrite rho_out_in by auto. fold i. rewrite rd_ok by idx.
      assert (B : b2z (0 <? s) = if (s <? 2)%Z then s else 1%Z). { unfold b2z. destruct (Z.ltb_spec 0 s), (Z.ltb_spec s 2); lia. }
      rewrite B. rewrite rd_ok. 2:{ destruct (Z.ltb_spec s 2); idx. } reflexivity.
  - intros O. destruct (rho_out_out x O) as [b ->]. destruct b; eexists; (split; [reflexivity|apply raise_nonzero; lia]).
Qed.
(** rotation: the table value at the lower end of the cell *)
Lemma p1_flow : forall x r old,
  (inside x -> exists k, (0 <= k /\ k + 1 < nrho)%Z /\ rho k <= x < rho (k + 1)%Z /\ plasma_1D_eval_flow d x r old = Good (0%Z, vtor k * r)) /\
  (~ inside x -> exists e, plasma_1D_eval_flow d x r old = Good (e, old * r) /\ e <> 0%Z).
Proof.
  intros x r old. unfold plasma_1D_eval_flow. change (p_rho d) with (Arr nrho rho). change (p_nrho d) with nrho. cbn [aget]. rewrite rd_ok by idx. split.
  - intros I. rewrite rho_out_in by auto. destruct I as [I1 I2]. pose proof (locate_spec rho nrho x I1 I2) as L. cbv zeta in L. set (i := locate rho nrho x) in *. destruct L as [K X]; [lia|].
    exists i. rewrite rd_ok by idx. auto.
  - intros O. destruct (rho_out_out x O) as [b ->]. destruct b; eexists; (split; [reflexivity|apply raise_nonzero; lia]).
Qed.
End P1.

(** ** plasma_1Dt *)
(** spec: linear between slices j and j+1 of curves that are piecewise linear in radius *)
Definition interpolates2 (g : Z -> R) (n : Z) (tm : Z -> R) (j : Z) (tab : Z -> Z -> R) (x t v : R) : Prop :=
  exists u0 u1, interpolates g n (tab j) x u0 /\ interpolates g n (tab (j + 1)%Z) x u1 /\ (v - u0) * (tm (j + 1)%Z - tm j) = (u1 - u0) * (t - tm j).
Section P2.
Context (nrho ntime nion : Z) (rho time Te Ti ne ni vtor : Z -> R).
Let d := plasma_1Dt_init nrho ntime nion rho time Te Ti ne ni vtor.
Let ns := (nion + 1)%Z.
(** spec: the input tables of species s at slice j *)
Definition dens_slice (s j k : Z) : R := if (s =? 0)%Z then ne (j * nrho + k)%Z else ni ((s - 1) * (nrho * ntime) + j * nrho + k)%Z.
Definition temp_slice (s j k : Z) : R := if (s =? 0)%Z then Te (j * nrho + k)%Z else Ti (j * nrho + k)%Z.
(** what is read as slice j of species s *)
Definition mixed_slice (s j k : Z) : R := dens_slice ((j * ns + s) / ntime) ((j * ns + s) mod ntime) k.
Hypothesis N1 : (1 <= nrho)%Z.
Hypothesis N2 : (0 <= nion)%Z.
Hypothesis N3 : (2 <= ntime)%Z.
Hypothesis TI : increasing time ntime.
Lemma dt_dens : forall s j k, (0 <= s < ns)%Z -> (0 <= j < ntime)%Z -> (0 <= k < nrho)%Z -> aget (q_dens d) (j * ns * nrho + s * nrho + k)%Z = mixed_slice s j k.
Proof.
  intros s j k S J K. unfold mixed_slice. set (q := (j * ns + s)%Z). replace (j * ns * nrho + s * nrho + k)%Z with (q * nrho + k)%Z by (unfold q; ring).
  assert (Q : (0 <= q)%Z) by (unfold q; nia). pose proof (Z.div_mod q ntime ltac:(lia)) as DM. pose proof (Z.mod_pos_bound q ntime ltac:(lia)) as MB.
  set (a := (q / ntime)%Z) in *. set (b := (q mod ntime)%Z) in *. assert (A : (0 <= a)%Z) by (apply Z.div_pos; lia).
  unfold d, plasma_1Dt_init, dens_slice. cbn [q_dens aget]. rewrite DM. destruct (Z.eqb_spec a 0) as [E|NE].
  - rewrite E. destruct (Z.ltb_spec ((ntime * 0 + b) * nrho + k) (nrho * ntime)); [|nia]. f_equal. ring.
  - destruct (Z.ltb_spec ((ntime * a + b) * nrho + k) (nrho * ntime)).
    + exfalso. assert (ntime * nrho <= ntime * a * nrho)%Z by nia. nia.
    + f_equal. ring.
Qed.
Lemma dt_temp : forall s j k, (0 <= s < 2)%Z -> (0 <= j < ntime)%Z -> (0 <= k < nrho)%Z -> aget (q_temp d) (j * 2 * nrho + s * nrho + k)%Z = temp_slice s j k.
Proof.
  intros s j k S J K. unfold d, plasma_1Dt_init, temp_slice. cbn [q_temp aget]. cbv zeta.
  replace (j * 2 * nrho + s * nrho + k)%Z with (k + (2 * j + s) * nrho)%Z by ring. rewrite Z.div_add, Z.mod_add, Z.div_small, Z.mod_small, Z.add_0_l by lia.
  destruct (Z.eqb_spec s 0) as [->|NE].
  - rewrite Z.add_0_r, Z.even_mul. cbn [Z.even orb]. replace (2 * j / 2)%Z with j by (rewrite Z.mul_comm, Z.div_mul; lia). reflexivity.
  - assert (s = 1%Z) by lia. subst s. rewrite Z.even_add, Z.even_mul. cbn [Z.even orb eqb]. replace ((2 * j + 1) / 2)%Z with j; [reflexivity|].
    rewrite Z.mul_comm, Z.add_comm, Z.div_add by lia. reflexivity.
Qed.
Definition interior (j : Z) (t : R) : Prop := (0 <= j /\ j + 2 < ntime)%Z /\ time j <= t < time (j + 1)%Z.
Lemma dt_time : forall t,
  (t < time 0%Z -> time_cell d t = Bad) /\
  (forall j, interior j t -> time_cell d t = Good (j, (t - time j) / (time (j + 1)%Z - time j))) /\
  (time (ntime - 2)%Z <= t -> time_cell d t = Good ((ntime - 2)%Z, 1)).
Proof.
  intros t. unfold time_cell. change (q_time d) with (Arr ntime time). change (q_ntime d) with ntime. cbn [aget]. split; [|split].
  - intros L. rewrite (locate_before time ntime t L). apply (rd_bad _ _ _ _ _ (-1)%Z); [now left|lia].
  - intros j [J T]. assert (E : locate time ntime t = j).
    { assert (T0 : time 0%Z <= t). { destruct (Z.eq_dec j 0) as [->|]; [lra|]. assert (time 0%Z < time j) by (apply (increasing_lt time ntime TI); lia). lra. }
      assert (T1 : t < time (ntime - 1)%Z). { assert (time (j + 1)%Z < time (ntime - 1)%Z) by (apply (increasing_lt time ntime TI); lia). lra. }
      destruct (locate_spec time ntime t T0 T1 ltac:(lia)) as [K X]. apply (cell_unique time ntime TI _ _ t); auto. lia. }
    rewrite E. rewrite rd_ok by idx. destruct (Z.ltb_spec j 0); [lia|]. destruct (Z.leb_spec (ntime - 2) j); [lia|reflexivity].
  - intros L. assert (E : locate time ntime t = (ntime - 2)%Z).
    { apply locate_after; [lia|]. intros i I. destruct (Z.eq_dec i (ntime - 2)) as [->|]; [lra|]. assert (time i < time (ntime - 2)%Z) by (apply (increasing_lt time ntime TI); lia). lra. }
    rewrite E. rewrite rd_ok by idx. destruct (Z.ltb_spec (ntime - 2) 0); [lia|]. destruct (Z.leb_spec (ntime - 2) (ntime - 2)); [reflexivity|lia].
Qed.
Let ins := inside nrho rho.
Lemma dt_cell : forall x t, ins x -> exists i, (0 <= i /\ i + 1 < nrho)%Z /\ rho i <= x < rho (i + 1)%Z /\
  forall j tw, time_cell d t = Good (j, tw) -> (0 <= j /\ j + 1 < ntime)%Z ->
  exists f, plasma_1Dt_eval_densandtemp d x t = Good f /\ let tr := (x - rho i) / (rho (i + 1)%Z - rho i) in
   forall s, (0 <= s <= nion)%Z ->
    fst (f s) = bilin (mixed_slice s j i) (mixed_slice s j (i + 1)) (mixed_slice s (j + 1) i) (mixed_slice s (j + 1) (i + 1)) tr tw /\
    snd (f s) = bilin (temp_slice s j i) (temp_slice s j (i + 1)) (temp_slice s (j + 1) i) (temp_slice s (j + 1) (i + 1)) tr tw.
Proof.
  intros x t I. unfold plasma_1Dt_eval_densandtemp. change (q_rho d) with (Arr nrho rho). change (q_nrho d) with nrho. change (q_nsp d) with ns. cbn [aget].
  assert (I0 := I). destruct I as [I1 I2]. pose proof (locate_spec rho nrho x I1 I2) as L. cbv zeta in L. set (i := locate rho nrho x) in *. destruct L as [K X]; [lia|].
  exists i. split; [exact K|]. split; [exact X|]. intros j tw T J. rewrite rd_ok by idx. rewrite rho_out_in by auto. rewrite rd_ok by idx. rewrite T. cbv beta iota zeta.
  rewrite rd_ok. 2:{ intros m M. apply in_flat_map in M. destruct M as (s & S & M). apply in_range in S. cbn -[Z.mul Z.add Z.sub]. fold ns. cbn [In] in M.
    assert (B0 : (0 <= j * ns + s /\ (j * ns + s + 1) <= ns * ntime)%Z) by nia. assert (B1 : (0 <= (j + 1) * ns + s /\ ((j + 1) * ns + s + 1) <= ns * ntime)%Z) by nia.
    replace (j * ns * nrho + s * nrho + i)%Z with ((j * ns + s) * nrho + i)%Z in M by ring. replace ((j + 1) * ns * nrho + s * nrho + i)%Z with (((j + 1) * ns + s) * nrho + i)%Z in M by ring.
    set (b0 := (j * ns + s)%Z) in *. set (b1 := ((j + 1) * ns + s)%Z) in *. assert (U : forall b, (0 <= b /\ b + 1 <= ns * ntime)%Z -> (0 <= b * nrho + i /\ b * nrho + i + 1 < ns * nrho * ntime)%Z) by (intros b B; nia).
    destruct (U b0 B0), (U b1 B1). destruct M as [<-|[<-|[<-|[<-|[]]]]]; lia. }
  rewrite rd_ok. 2:{ intros m M. apply in_flat_map in M. destruct M as (s & S & M). apply in_range in S. cbn -[Z.mul Z.add Z.sub]. cbn [In] in M.
    assert (B0 : (0 <= j * 2 + s /\ (j * 2 + s + 1) <= 2 * ntime)%Z) by nia. assert (B1 : (0 <= (j + 1) * 2 + s /\ ((j + 1) * 2 + s + 1) <= 2 * ntime)%Z) by nia.
    replace (j * 2 * nrho + s * nrho + i)%Z with ((j * 2 + s) * nrho + i)%Z in M by ring. replace ((j + 1) * 2 * nrho + s * nrho + i)%Z with (((j + 1) * 2 + s) * nrho + i)%Z in M by ring.
    set (b0 := (j * 2 + s)%Z) in *. set (b1 := ((j + 1) * 2 + s)%Z) in *. assert (U : forall b, (0 <= b /\ b + 1 <= 2 * ntime)%Z -> (0 <= b * nrho + i /\ b * nrho + i + 1 < 2 * nrho * ntime)%Z) by (intros b B; nia).
    destruct (U b0 B0), (U b1 B1). destruct M as [<-|[<-|[<-|[<-|[]]]]]; lia. }
  eexists. split; [reflexivity|]. intros s S. cbn [fst snd]. split.
  - assert (S1 : (0 <= s < ns)%Z) by (unfold ns; lia). rewrite <- !Z.add_assoc. rewrite <- !dt_dens by lia. rewrite <- !Z.add_assoc. reflexivity.
  - set (s' := if (s <? 2)%Z then s else 1%Z). assert (S1 : (0 <= s' < 2)%Z) by (unfold s'; destruct (Z.ltb_spec s 2); lia).
    assert (TS : forall a b, temp_slice s a b = temp_slice s' a b). { intros a b. unfold temp_slice, s'. destruct (Z.ltb_spec s 2), (Z.eqb_spec s 0); auto; try lia. }
    rewrite !TS, <- !dt_temp by lia. rewrite <- !Z.add_assoc. reflexivity.
Qed.
Lemma bilin_interp : forall (tab : Z -> Z -> R) x t i j, (0 <= i /\ i + 1 < nrho)%Z -> rho i <= x < rho (i + 1)%Z -> time j < time (j + 1)%Z ->
  interpolates2 rho nrho time j tab x t (bilin (tab j i) (tab j (i + 1)%Z) (tab (j + 1)%Z i) (tab (j + 1)%Z (i + 1)%Z) ((x - rho i) / (rho (i + 1)%Z - rho i)) ((t - time j) / (time (j + 1)%Z - time j))).
Proof.
  intros tab x t i j K X T. unfold bilin. set (tr := (x - rho i) / (rho (i + 1)%Z - rho i)). exists (lin (tab j i) (tab j (i + 1)%Z) tr), (lin (tab (j + 1)%Z i) (tab (j + 1)%Z (i + 1)%Z) tr).
  split; [|split].
  - exists i. split; auto. split; auto. apply lin_spec. lra.
  - exists i. split; auto. split; auto. apply lin_spec. lra.
  - unfold lin at 1. field. lra.
Qed.
(** densities and temperatures by time *)
Lemma dt_spec : forall x t, ins x ->
  (t < time 0%Z -> plasma_1Dt_eval_densandtemp d x t = Bad) /\
  (forall j, interior j t -> exists f, plasma_1Dt_eval_densandtemp d x t = Good f /\
     forall s, (0 <= s <= nion)%Z -> interpolates2 rho nrho time j (mixed_slice s) x t (fst (f s)) /\ interpolates2 rho nrho time j (temp_slice s) x t (snd (f s))) /\
  (time (ntime - 2)%Z <= t -> exists f, plasma_1Dt_eval_densandtemp d x t = Good f /\
     forall s, (0 <= s <= nion)%Z -> interpolates rho nrho (mixed_slice s (ntime - 1)) x (fst (f s)) /\ interpolates rho nrho (temp_slice s (ntime - 1)) x (snd (f s))).
Proof.
  intros x t I. destruct (dt_time t) as (T0 & T1 & T2). destruct (dt_cell x t I) as (i & K & X & C). split; [|split].
  - intros L. unfold plasma_1Dt_eval_densandtemp. change (q_rho d) with (Arr nrho rho). change (q_nrho d) with nrho. cbn [aget]. rewrite rd_ok by idx. rewrite rho_out_in by auto.
    destruct I as [I1 I2]. pose proof (locate_spec rho nrho x I1 I2) as LC. cbv zeta in LC. destruct LC as [K' _]; [lia|]. rewrite rd_ok by idx. rewrite T0 by auto. reflexivity.
  - intros j J. specialize (T1 j J). destruct (C _ _ T1) as (f & F & H); [destruct J; lia|]. exists f. split; [exact F|]. intros s S. destruct (H s S) as [-> ->]. split; apply bilin_interp; auto; destruct J; lra.
  - intros L. specialize (T2 L). destruct (C _ _ T2) as (f & F & H); [lia|]. exists f. split; [exact F|]. intros s S. destruct (H s S) as [-> ->].
    replace (ntime - 2 + 1)%Z with (ntime - 1)%Z by lia.
    assert (B : forall a b c e tr, bilin a b c e tr 1 = lin c e tr) by (intros; unfold bilin, lin; ring). rewrite !B. split; exists i; (split; [auto|]; split; [auto|]; apply lin_spec; lra).
Qed.
Lemma dt_outside : forall x t r old, ~ ins x -> (exists e, plasma_1Dt_eval_densandtemp d x t = Fail e /\ e <> 0%Z) /\ exists e, plasma_1Dt_eval_flow d x t r old = Good (e, old * r) /\ e <> 0%Z.
Proof.
  intros x t r old O. unfold plasma_1Dt_eval_densandtemp, plasma_1Dt_eval_flow. change (q_rho d) with (Arr nrho rho). change (q_nrho d) with nrho. cbn [aget].
  destruct (rho_out_out nrho rho x O) as [b ->]. split; rewrite rd_ok by idx; destruct b; eexists; (split; [reflexivity|apply raise_nonzero; lia]).
Qed.
(** rotation: radial and time weights are exchanged *)
Definition vtor_slice (j k : Z) : R := vtor (j * nrho + k)%Z.
Lemma dt_flow : forall x t r old j, ins x -> interior j t -> exists k, (0 <= k /\ k + 1 < nrho)%Z /\ rho k <= x < rho (k + 1)%Z /\
  let tr := (x - rho k) / (rho (k + 1)%Z - rho k) in let tw := (t - time j) / (time (j + 1)%Z - time j) in
  plasma_1Dt_eval_flow d x t r old = Good (0%Z, (bilin (vtor_slice j k) (vtor_slice j (k + 1)) (vtor_slice (j + 1) k) (vtor_slice (j + 1) (k + 1)) tr tw
     + (tr - tw) * (vtor_slice (j + 1) k - vtor_slice j (k + 1))) * r).
Proof.
  intros x t r old j I J. unfold plasma_1Dt_eval_flow. change (q_rho d) with (Arr nrho rho). change (q_nrho d) with nrho. cbn [aget].
  assert (I0 := I). destruct I as [I1 I2]. pose proof (locate_spec rho nrho x I1 I2) as L. cbv zeta in L. set (i := locate rho nrho x) in *. destruct L as [K X]; [lia|].
  exists i. split; [exact K|]. split; [exact X|]. rewrite rd_ok by idx. rewrite rho_out_in by auto. rewrite rd_ok by idx. destruct (dt_time t) as (_ & T1 & _). rewrite (T1 j J). cbv beta iota zeta.
  destruct J as [J _]. rewrite rd_ok by (unfold d, plasma_1Dt_init; cbn [q_vtor asize]; idx). f_equal. f_equal. f_equal. unfold d, plasma_1Dt_init. cbn [q_vtor aget]. unfold vtor_slice, bilin, lin. rewrite !Z.add_assoc. ring.
Qed.
End P2.
(** the summary printed by the initialisation: exactly when its reads are inside *)
Lemma init_reads_spec : forall nrho ntime nion, (1 <= nrho)%Z -> (1 <= ntime)%Z -> (1 <= nion)%Z ->
  ((forall m, In m (plasma_1Dt_init_reads nrho ntime nion) -> (0 <= m < (nion + 1) * nrho * ntime)%Z) <-> (ntime + 4 * nrho <= nion * nrho * ntime)%Z).
Proof.
  intros nrho ntime nion A B C. unfold plasma_1Dt_init_reads. split.
  - intros H. assert (M : (0 <= nrho * ntime + ntime + nrho * (2 + 1) + (nrho - 1) < (nion + 1) * nrho * ntime)%Z).
    { apply H. apply in_flat_map. exists (nrho - 1)%Z. split; [apply in_range; lia|]. right. apply in_map_iff. exists 0%Z. split; [reflexivity|apply in_range; lia]. }
    nia.
  - intros H m M. apply in_flat_map in M. destruct M as (k & K & M). apply in_range in K. destruct M as [<-|M].
    + assert (nrho * ntime > 0)%Z by nia. split; [lia|]. nia.
    + apply in_map_iff in M. destruct M as (? & <- & _). split; [nia|]. nia.
Qed.

(** ** plasma_1DS *)
Section P3.
Context (junk : nat -> R) (nrho nion : nat) (rhomin rhomax : R) (Te Ti ne vtor : nat -> R) (ni : nat -> nat -> R).
Hypothesis N1 : (2 <= nrho)%nat.
Hypothesis MM : rhomin < rhomax.
Let E : enough nrho NATURALBC := or_introl (conj eq_refl N1).
(** spec: the natural cubic spline through the logarithms of a table *)
Definition log_spline (tab : nat -> R) (F : R -> R) : Prop := exists F1 F2, spline_interpolant nrho NATURALBC rhomin rhomax (fun i => ln (tab i)) F F1 F2.
Definition dens_tab (s : Z) : nat -> R := if (s =? 0)%Z then ne else ni (Z.to_nat (s - 1)).
Definition temp_tab (s : Z) : nat -> R := if (s =? 0)%Z then Te else Ti.
Definition su (f : nat -> R) := interp1Dcomp_setup junk f nrho NATURALBC rhomin rhomax.
Lemma su_ok : forall f, exists s, su f = Val s.
Proof. intros f. apply interp1Dcomp_setup_ok. exact E. Qed.
Lemma su_eval : forall f s, su f = Val s -> exists F F1 F2, spline_interpolant nrho NATURALBC rhomin rhomax f F F1 F2 /\
  (forall x, rhomin <= x <= rhomax -> interp1Dcomp_eval_f s x = Val (F x)) /\ (forall x, ~ (rhomin <= x <= rhomax) -> interp1Dcomp_eval_f s x = Err).
Proof.
  intros f s H. destruct (interp1Dcomp_is_spline junk f nrho NATURALBC rhomin rhomax s E MM H) as (F & F1 & F2 & A & B & C). exists F, F1, F2. split; [exact A|]. split.
  - intros x X. apply B. auto.
  - intros x X. apply C; auto.
Qed.
Lemma ds_init : exists d, plasma_1DS_init junk nrho rhomin rhomax nion Te Ti ne ni vtor = Some d /\ z_nsp d = (Z.of_nat nion + 1)%Z /\
  (forall s, (0 <= s <= 1)%Z -> su (fun i => ln (temp_tab s i)) = Val (z_temp d s)) /\
  (forall s, (0 <= s <= Z.of_nat nion)%Z -> su (fun i => ln (dens_tab s i)) = Val (z_dens d s)) /\ su vtor = Val (z_vtor d).
Proof.
  unfold plasma_1DS_init. fold su. destruct (su_ok (fun i => ln (Te i))) as [te TE]. destruct (su_ok (fun i => ln (Ti i))) as [ti TI]. destruct (su_ok (fun i => ln (ne i))) as [e NE]. destruct (su_ok vtor) as [v VE].
  unfold su in *. cbv beta zeta. rewrite TE, TI, NE, VE. fold su in *. match goal with |- context [forallb ?p ?l] => assert (FA : forallb p l = true) end.
  { apply forallb_forall. intros r R. apply in_map_iff in R. destruct R as (j & <- & _). destruct (su_ok (fun i => ln (ni j i))) as [c C]. unfold su in C. rewrite C. reflexivity. }
  rewrite FA. eexists. split; [reflexivity|]. cbn [z_nsp z_temp z_dens z_vtor]. split; [reflexivity|]. split; [|split; [|reflexivity]].
  - intros s S. unfold temp_tab. destruct (Z.eqb_spec s 0); auto.
  - intros s S. unfold dens_tab. destruct (Z.eqb_spec s 0) as [->|NZ]; [exact NE|].
    set (fn := fun j : nat => su (fun i => ln (ni j i))).
    assert (NT : nth (Z.to_nat (s - 1)) (map fn (seq 0 nion)) (Val e) = fn (Z.to_nat (s - 1))).
    { rewrite (nth_indep _ (Val e) (fn 0%nat)) by (rewrite map_length, seq_length; lia). rewrite map_nth. f_equal. rewrite seq_nth by lia. lia. }
    unfold fn in NT. unfold su in NT. rewrite NT. fold su. destruct (su_ok (fun i => ln (ni (Z.to_nat (s - 1)) i))) as [c C]. unfold su in *. rewrite C. reflexivity.
Qed.
Lemma exp_ok : forall l1 l2 v, exp_checked l1 l2 (Val v) = Good (exp v).
Proof. intros. cbn. destruct (Rlt_dec (exp v) 0); auto. pose proof (exp_pos v). lra. Qed.
Lemma ds_spec : exists d, plasma_1DS_init junk nrho rhomin rhomax nion Te Ti ne ni vtor = Some d /\
  (forall s, (0 <= s <= Z.of_nat nion)%Z -> exists Fn Ft, log_spline (dens_tab s) Fn /\ log_spline (temp_tab s) Ft /\
     (forall x, rhomin <= x <= rhomax -> plasma_1DS_eval_dens d x s = Good (exp (Fn x)) /\ plasma_1DS_eval_temp d x s = Good (exp (Ft x)) /\
        exists f, plasma_1DS_eval_densandtemp d x = Good f /\ f s = (exp (Fn x), exp (Ft x)))) /\
  (forall s x, (0 <= s <= Z.of_nat nion)%Z -> ~ (rhomin <= x <= rhomax) -> exists e1 e2 e3, e1 <> 0%Z /\ e2 <> 0%Z /\ e3 <> 0%Z /\
      plasma_1DS_eval_dens d x s = Fail e1 /\ plasma_1DS_eval_temp d x s = Fail e2 /\ plasma_1DS_eval_densandtemp d x = Fail e3) /\
  (exists F F1 F2, spline_interpolant nrho NATURALBC rhomin rhomax vtor F F1 F2 /\ forall x r old, (rhomin <= x <= rhomax -> plasma_1DS_eval_flow d x r old = Good (0%Z, F x * r)) /\
      (~ (rhomin <= x <= rhomax) -> plasma_1DS_eval_flow d x r old = Good (0%Z, old * r))).
Proof.
  destruct ds_init as (d & D & NS & TE & DE & VE). exists d. split; [exact D|].
  assert (TV : forall s, (0 <= s <= 1)%Z -> exists F F1 F2, spline_interpolant nrho NATURALBC rhomin rhomax (fun i => ln (temp_tab s i)) F F1 F2 /\
     (forall x, rhomin <= x <= rhomax -> interp1Dcomp_eval_f (z_temp d s) x = Val (F x)) /\ (forall x, ~ (rhomin <= x <= rhomax) -> interp1Dcomp_eval_f (z_temp d s) x = Err)).
  { intros s S. apply su_eval. auto. }
  assert (DV : forall s, (0 <= s <= Z.of_nat nion)%Z -> exists F F1 F2, spline_interpolant nrho NATURALBC rhomin rhomax (fun i => ln (dens_tab s i)) F F1 F2 /\
     (forall x, rhomin <= x <= rhomax -> interp1Dcomp_eval_f (z_dens d s) x = Val (F x)) /\ (forall x, ~ (rhomin <= x <= rhomax) -> interp1Dcomp_eval_f (z_dens d s) x = Err)).
  { intros s S. apply su_eval. auto. }
  assert (TL : forall s, In s (tl (range (z_nsp d))) -> (0 <= s <= Z.of_nat nion)%Z).
  { intros s S. assert (R : In s (range (z_nsp d))) by (destruct (range (z_nsp d)); [destruct S|now right]). apply in_range in R. lia. }
  split; [|split].
  - intros s S. destruct (DV s S) as (Fn & Fn1 & Fn2 & A1 & A2 & _). assert (S' : (0 <= b2z (0 <? s) <= 1)%Z) by (unfold b2z; destruct (0 <? s)%Z; lia).
    destruct (TV _ S') as (Ft & Ft1 & Ft2 & B1 & B2 & _).
    assert (TT : temp_tab (b2z (0 <? s)) = temp_tab s). { unfold temp_tab, b2z. destruct (Z.ltb_spec 0 s), (Z.eqb_spec s 0); auto; lia. } rewrite TT in B1.
    exists Fn, Ft. split; [unfold log_spline; eauto|]. split; [unfold log_spline; eauto|]. intros x X. unfold plasma_1DS_eval_dens, plasma_1DS_eval_temp. rewrite A2, B2 by auto. rewrite !exp_ok. split; [auto|]. split; [auto|].
    destruct (TV 0%Z ltac:(lia)) as (T0 & _ & _ & _ & T0v & _). destruct (TV 1%Z ltac:(lia)) as (T1 & _ & _ & _ & T1v & _).
    assert (GD : forall s, (0 <= s <= Z.of_nat nion)%Z -> exists v, interp1Dcomp_eval_f (z_dens d s) x = Val v). { intros s0 S0. destruct (DV s0 S0) as (F & _ & _ & _ & V & _). rewrite V by auto. eauto. }
    unfold plasma_1DS_eval_densandtemp. cbv zeta. match goal with |- context [existsb oob ?l] => set (all := l) end.
    assert (ALL : forall r, In r all -> exists v, r = Val v).
    { intros r R. unfold all in R. cbn [In] in R. destruct R as [<-|[<-|[<-|R]]]; [rewrite T0v by auto; eauto|apply GD; lia|rewrite T1v by auto; eauto|]. apply in_map_iff in R. destruct R as (s0 & <- & S0). apply GD. auto. }
    assert (X1 : existsb oob all = false). { apply not_true_is_false. intros H. apply existsb_exists in H. destruct H as (r & R & O). destruct (ALL r R) as [v ->]. discriminate. }
    assert (X2 : forallb good all = true). { apply forallb_forall. intros r R. destruct (ALL r R) as [v ->]. reflexivity. }
    rewrite X1, X2. cbn [negb]. match goal with |- context [existsb ?p ?l] => assert (X3 : existsb p l = false) end.
    { apply not_true_is_false. intros H. apply existsb_exists in H. destruct H as (s0 & _ & O). cbn [fst snd] in O. destruct (Rlt_dec _ 0) as [L|_] in O; [pose proof (exp_pos (val (interp1Dcomp_eval_f (z_dens d s0) x))); lra|].
      destruct (Rlt_dec _ 0) as [L|_] in O; [|discriminate]. match type of L with exp ?u < 0 => pose proof (exp_pos u); lra end. }
    rewrite X3. eexists. split; [reflexivity|]. cbv beta. rewrite A2 by auto. cbn [val]. f_equal. f_equal.
    assert (TZ : (if (s =? 0)%Z then interp1Dcomp_eval_f (z_temp d 0) x else interp1Dcomp_eval_f (z_temp d 1) x) = Val (Ft x)).
    { rewrite <- (B2 x X). unfold b2z. destruct (Z.ltb_spec 0 s), (Z.eqb_spec s 0); auto; lia. }
    rewrite TZ. reflexivity.
  - intros s x S X. destruct (DV s S) as (Fn & Fn1 & Fn2 & _ & _ & A3). assert (S' : (0 <= b2z (0 <? s) <= 1)%Z) by (unfold b2z; destruct (0 <? s)%Z; lia).
    destruct (TV _ S') as (Ft & Ft1 & Ft2 & _ & _ & B3).
    unfold plasma_1DS_eval_dens, plasma_1DS_eval_temp. rewrite A3, B3 by auto. cbn [exp_checked]. exists (error_raise ERR_INPUT_EVALUATION 275 EF_PLASMA_1DS), (error_raise ERR_INPUT_EVALUATION 243 EF_PLASMA_1DS), (error_raise ERR_INPUT_EVALUATION 319 EF_PLASMA_1DS).
    split; [apply raise_nonzero; lia|]. split; [apply raise_nonzero; lia|]. split; [apply raise_nonzero; lia|]. split; [reflexivity|]. split; [reflexivity|].
    unfold plasma_1DS_eval_densandtemp. cbv zeta. match goal with |- context [existsb oob ?l] => set (all := l) end.
    destruct (TV 0%Z ltac:(lia)) as (T0 & _ & _ & _ & _ & T0v). destruct (TV 1%Z ltac:(lia)) as (T1 & _ & _ & _ & _ & T1v).
    assert (ALL : forall r, In r all -> r = Err).
    { intros r R. unfold all in R. cbn [In] in R. destruct R as [<-|[<-|[<-|R]]]; [now apply T0v| |now apply T1v|].
      - destruct (DV 0%Z ltac:(lia)) as (? & ? & ? & _ & _ & V). now apply V.
      - apply in_map_iff in R. destruct R as (s0 & <- & S0). destruct (DV s0 (TL _ S0)) as (? & ? & ? & _ & _ & V). now apply V. }
    assert (X1 : existsb oob all = false). { apply not_true_is_false. intros H. apply existsb_exists in H. destruct H as (r & R & O). rewrite (ALL r R) in O. discriminate. }
    assert (X2 : forallb good all = false). { unfold all. cbn [forallb]. rewrite T0v by auto. reflexivity. }
    rewrite X1, X2. reflexivity.
  - destruct (su_eval vtor _ VE) as (F & F1 & F2 & A & B & C). exists F, F1, F2. split; [exact A|]. intros x r old. unfold plasma_1DS_eval_flow. split; intros X; [rewrite B by auto|rewrite C by auto]; reflexivity.
Qed.
Lemma log_spline_node : forall tab F k, log_spline tab F -> (k < nrho)%nat -> 0 < tab k -> exp (F (rhomin + INR k * ((rhomax - rhomin) / INR (nrho - 1)))) = tab k.
Proof.
  intros tab F k (F1 & F2 & A & _) K P. cbv zeta in A. specialize (A k K). replace (cells nrho NATURALBC) with (nrho - 1)%nat in A by reflexivity. rewrite A. now apply exp_ln.
Qed.
End P3.

(** ** plasma.c *)
Definition raises {A} (r : pres A) : Prop := forall e, r = Fail e -> e <> 0%Z.
Lemma raises_rd : forall A a l (k : pres A), raises k -> raises (rd a l k).
Proof. intros A a l k H e. unfold rd. destruct (forallb _ l); [apply H|discriminate]. Qed.
Lemma raises_good : forall A (a : A), raises (Good a).
Proof. intros A a e H. discriminate. Qed.
Lemma raises_fail : forall A t l f, (0 <= l < 8388608)%Z -> @raises A (Fail (error_raise t l f)).
Proof. intros A t l f L e H. injection H as <-. now apply raise_nonzero. Qed.
Lemma raises_pick : forall A B (g : A -> B) r, raises r -> raises (pick g r).
Proof. intros A B g [e| |a] H e' E; cbn in E; try discriminate. injection E as <-. now apply H. Qed.
Lemma raises_bad : forall A, @raises A Bad.
Proof. intros A e H. discriminate. Qed.
Ltac raise := repeat first [apply raises_rd | apply raises_good | apply raises_bad | apply raises_fail; lia | match goal with |- raises (match rho_out ?a ?b ?c with _ => _ end) => destruct (rho_out a b c) as [[|]|] end | progress cbv zeta].
Lemma time_cell_good : forall d t, time_cell d t = Bad \/ exists j w, time_cell d t = Good (j, w).
Proof. intros d t. unfold time_cell. cbv zeta. unfold rd. destruct (forallb _ _); [right|left; auto]. destruct (_ <? 0)%Z; eauto. destruct (_ <=? _)%Z; eauto. Qed.
Lemma raises_1D_temp : forall d x s, raises (plasma_1D_eval_temp d x s).
Proof. intros. unfold plasma_1D_eval_temp. raise. Qed.
Lemma raises_1D_dens : forall d x s, raises (plasma_1D_eval_dens d x s).
Proof. intros. unfold plasma_1D_eval_dens. raise. Qed.
Lemma raises_1D_both : forall d x, raises (plasma_1D_eval_densandtemp d x).
Proof. intros. unfold plasma_1D_eval_densandtemp. raise. Qed.
Lemma raises_1Dt_both : forall d x t, raises (plasma_1Dt_eval_densandtemp d x t).
Proof. intros. unfold plasma_1Dt_eval_densandtemp. raise. destruct (time_cell_good d t) as [->|(j & w & ->)]; raise. Qed.
Lemma raises_exp : forall l1 l2 r, (0 <= l1 < 8388608)%Z -> (0 <= l2 < 8388608)%Z -> raises (exp_checked l1 l2 r).
Proof. intros l1 l2 r L1 L2. destruct r as [| |v]; cbn; [raise|raise|]. destruct (Rlt_dec (exp v) 0); raise. Qed.
Lemma raises_1DS_both : forall d x, raises (plasma_1DS_eval_densandtemp d x).
Proof. intros. unfold plasma_1DS_eval_densandtemp. cbv zeta. destruct (existsb oob _); [raise|]. destruct (negb _); [raise|]. destruct (existsb _ _); raise. Qed.
(** what the type-specific evaluation says *)
Definition temp_of (p : plasma) (x t : R) (s : Z) : pres R := match p with T1D d => plasma_1D_eval_temp d x s | T1Dt d => plasma_1Dt_eval_temp d x t s | T1DS d => plasma_1DS_eval_temp d x s | Tother => Bad end.
Definition dens_of (p : plasma) (x t : R) (s : Z) : pres R := match p with T1D d => plasma_1D_eval_dens d x s | T1Dt d => plasma_1Dt_eval_dens d x t s | T1DS d => plasma_1DS_eval_dens d x s | Tother => Bad end.
Definition both_of (p : plasma) (x t : R) : pres (Z -> R * R) := match p with T1D d => plasma_1D_eval_densandtemp d x | T1Dt d => plasma_1Dt_eval_densandtemp d x t | T1DS d => plasma_1DS_eval_densandtemp d x | Tother => Bad end.
Lemma defaulted_spec : forall dflt old r e v, raises r -> defaulted dflt old r = Good (e, v) -> (e = 0%Z /\ r = Good v) \/ (e <> 0%Z /\ r = Fail e /\ v = dflt).
Proof.
  intros dflt old r e v H. destruct r as [e0| |v0]; cbn; intros E; [|discriminate|]; injection E as <- <-; [|auto].
  assert (e0 <> 0%Z) by now apply H. right. repeat split; auto. apply Z.eqb_neq in H0. now rewrite H0.
Qed.
Lemma temp_dispatch : forall p x t s old e v, p <> Tother -> plasma_eval_temp p x t s old = Good (e, v) ->
  (e = 0%Z /\ temp_of p x t s = Good v) \/ (e <> 0%Z /\ temp_of p x t s = Fail e /\ v = 1e20).
Proof.
  intros p x t s old e v NO. destruct p; cbn [plasma_eval_temp temp_of]; try congruence; apply defaulted_spec.
  - apply raises_1D_temp.
  - apply raises_pick, raises_1Dt_both.
  - apply raises_exp; lia.
Qed.
Lemma dens_dispatch : forall p x t s old e v, p <> Tother -> plasma_eval_dens p x t s old = Good (e, v) ->
  (e = 0%Z /\ dens_of p x t s = Good v) \/ (e <> 0%Z /\ dens_of p x t s = Fail e /\ v = 1e20).
Proof.
  intros p x t s old e v NO. destruct p; cbn [plasma_eval_dens dens_of]; try congruence; apply defaulted_spec.
  - apply raises_1D_dens.
  - apply raises_pick, raises_1Dt_both.
  - apply raises_exp; lia.
Qed.
Lemma both_dispatch : forall p x t e f, plasma_eval_densandtemp p x t = Good (e, f) ->
  (e = 0%Z /\ p <> Tother /\ both_of p x t = Good f) \/ (e <> 0%Z /\ (forall s, f s = (1e20, 1e3)) /\ (p = Tother \/ both_of p x t = Fail e)).
Proof.
  assert (B : forall r e f, raises r -> both r = Good (e, f) -> (e = 0%Z /\ r = Good f) \/ (e <> 0%Z /\ (forall s, f s = (1e20, 1e3)) /\ r = Fail e)).
  { intros r e f H. destruct r as [e0| |v0]; cbn [both]; intros E; [|discriminate|]; injection E as <- <-; [right|left; auto]. split; [now apply H|auto]. }
  intros p x t e f H. destruct p; cbn [plasma_eval_densandtemp both_of] in *.
  - apply B in H; [|apply raises_1D_both]. destruct H as [(A & C)|(A & C & D)]; [left; repeat split; auto; discriminate|right; auto].
  - apply B in H; [|apply raises_1Dt_both]. destruct H as [(A & C)|(A & C & D)]; [left; repeat split; auto; discriminate|right; auto].
  - apply B in H; [|apply raises_1DS_both]. destruct H as [(A & C)|(A & C & D)]; [left; repeat split; auto; discriminate|right; auto].
  - apply B in H; [|raise]. destruct H as [(A & C)|(A & C & D)]; [discriminate|right; auto].
Qed.
Lemma flow_dispatch : forall p x t r old e v, plasma_eval_flow p x t r old = Good (e, v) -> e <> 0%Z -> v = 0.
Proof.
  intros p x t r old e v H NZ. unfold plasma_eval_flow in H. cbv zeta in H. match type of H with pick _ ?r = _ => destruct r as [e0| |[e1 v1]] end; cbn in H; try discriminate. injection H as <- <-.
  apply Z.eqb_neq in NZ. now rewrite NZ.
Qed.
