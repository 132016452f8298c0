(** Proofs for the field inputs and their dispatchers. *)
From Coq Require Import Reals Lra List ZArith Bool Lia.
From Verif Require Import Deriv Vec ErrorModel ErrorProofs MathModel MathProofs AxisModel AxisProofs LintModel SplineModel SplineProofs SplineUniq Spl2Model Spl2Proofs Spl2Uniq Spl2Props Spl3Model Spl3Proofs Spl3Props SplineProps GsModel GsProofs BfModel.
Local Open Scope R_scope.

Ltac nzerr := apply raise_nonzero; lia.

(** ** Derivatives of spline surfaces and volumes at interior points *)
Section der2.
Context (nx ny : nat) (xmn xmx ymn ymx : R) (f : nat -> nat -> R) (F Fx Fy Fxx Fyy Fxy : R -> R -> R).
Hypothesis S : surface_interpolant nx ny NATURALBC NATURALBC xmn xmx ymn ymx f F Fx Fy Fxx Fyy Fxy.
Context (x y : R).
Hypothesis X : xmn < x < xmx.
Hypothesis Y : ymn < y < ymx.
Lemma surf_der : Dx (fun t => F t y) x (Fx x y) /\ Dx (F x) y (Fy x y) /\ Dx (fun t => Fx t y) x (Fxx x y) /\ Dx (Fx x) y (Fxy x y) /\
  Dx (fun t => Fy t y) x (Fxy x y) /\ Dx (Fy x) y (Fyy x y).
Proof.
  destruct S as (_ & A & B & C & D).
  destruct (A y) as (_ & _ & A3 & _). destruct (A3 x (fun _ => X)) as (P1 & P2 & _). destruct (B x) as (_ & _ & B3 & _). destruct (B3 y (fun _ => Y)) as (Q1 & Q2 & _).
  repeat split; auto; [apply C|apply D]; intros _; auto.
Qed.
End der2.
Section der3.
Context (nx ny nz : nat) (xmn xmx ymn ymx zmn zmx : R) (f : nat -> nat -> nat -> R) (F Fx Fy Fz Fxx Fyy Fzz Fxy Fxz Fyz : R -> R -> R -> R).
Hypothesis S : volume_interpolant nx ny nz NATURALBC PERIODICBC NATURALBC xmn xmx ymn ymx zmn zmx f F Fx Fy Fz Fxx Fyy Fzz Fxy Fxz Fyz.
Context (x y z : R).
Hypothesis X : xmn < x < xmx.
Hypothesis Z : zmn < z < zmx.
Lemma vol_der : Dx (fun t => F t y z) x (Fx x y z) /\ Dx (fun t => F x t z) y (Fy x y z) /\ Dx (F x y) z (Fz x y z).
Proof.
  destruct S as (_ & A & B & C & _).
  destruct (A y z) as (_ & _ & A3 & _). destruct (A3 x (fun _ => X)) as (P1 & _ & _).
  destruct (B x z) as (_ & _ & B3 & _). destruct (B3 y ltac:(discriminate)) as (Q1 & _ & _).
  destruct (C x y) as (_ & _ & C3 & _). destruct (C3 z (fun _ => Z)) as (R1 & _ & _). auto.
Qed.
End der3.

Lemma no_field_spec : forall a b c, no_field a b c = true <-> V a b c = vzero.
Proof.
  intros a b c. unfold no_field. destruct (Req_EM_T _ 0) as [E|E]; split; intro H; auto; try discriminate.
  - pose proof (Rle_0_sqr a). pose proof (Rle_0_sqr b). pose proof (Rle_0_sqr c). unfold Rsqr in *. unfold vzero. f_equal; nra.
  - exfalso. apply E. injection H as -> -> ->. ring.
Qed.
Lemma divide_nz : forall B y (k : fres B), y <> 0 -> divide y k = k.
Proof. intros B y k H. unfold divide. destruct (Req_EM_T y 0); [contradiction|reflexivity]. Qed.

(** ** The axisymmetric field *)
(** the poloidal flux part and the tabulated part *)
Definition flux_field (Pr Pz BR BP BZ : R -> R -> R) (r z : R) : vec := V (BR r z - Pz r z / r) (BP r z) (BZ r z + Pr r z / r).
Section b2.
Context (junk : nat -> R) (n_r n_z : nat) (r_min r_max z_min z_max axis_r axis_z psi0 psi1 : R) (psi B_r B_phi B_z : nat -> R) (d : b2ds).
Hypothesis NR : (2 <= n_r)%nat.
Hypothesis NZ : (2 <= n_z)%nat.
Hypothesis MR : r_min < r_max.
Hypothesis MZ : z_min < z_max.
Hypothesis OK : B_2DS_init junk n_r r_min r_max n_z z_min z_max axis_r axis_z psi0 psi1 psi B_r B_phi B_z = IOk d.
Let setup f := interp2Dcomp_setup junk f n_r n_z NATURALBC NATURALBC r_min r_max z_min z_max.
Let surface (f : nat -> R) := surface_interpolant n_r n_z NATURALBC NATURALBC r_min r_max z_min z_max (fun i j => f (j * n_r + i)%nat).
Let on r z := r_min <= r <= r_max /\ z_min <= z <= z_max.
Let inside r z := r_min < r < r_max /\ z_min < z < z_max.
Lemma b2_setups : exists p br bp bz, setup psi = Val p /\ setup B_r = Val br /\ setup B_phi = Val bp /\ setup B_z = Val bz /\ d = B2 p br bp bz psi0 psi1 axis_r axis_z.
Proof.
  unfold B_2DS_init in OK. fold (setup psi) in OK. fold (setup B_r) in OK. fold (setup B_phi) in OK. fold (setup B_z) in OK.
  destruct (setup psi) as [| |p], (setup B_r) as [| |br], (setup B_phi) as [| |bp], (setup B_z) as [| |bz]; try discriminate.
  exists p, br, bp, bz. repeat split. destruct (B_2DS_eval_B (B2 p br bp bz psi0 psi1 axis_r axis_z) axis_r axis_z); try discriminate; now injection OK.
Qed.
Lemma nat_enough : forall n, (2 <= n)%nat -> enough n NATURALBC. Proof. intros. left. auto. Qed.
Lemma surf_of : forall f s, setup f = Val s -> exists F Fx Fy Fxx Fyy Fxy, surface f F Fx Fy Fxx Fyy Fxy /\
  (forall r z, on r z -> interp2Dcomp_eval_f s r z = Val (F r z) /\ interp2Dcomp_eval_df s r z = Val (F r z, Fx r z, Fy r z, Fxx r z, Fyy r z, Fxy r z)) /\
  (forall r z, ~ on r z -> interp2Dcomp_eval_f s r z = Err /\ interp2Dcomp_eval_df s r z = Err).
Proof.
  intros f s H. destruct (interp2Dcomp_is_spline junk f n_r n_z NATURALBC NATURALBC r_min r_max z_min z_max s (nat_enough _ NR) (nat_enough _ NZ) MR MZ H) as (F & Fx & Fy & Fxx & Fyy & Fxy & A & B & C).
  exists F, Fx, Fy, Fxx, Fyy, Fxy. split; [exact A|]. split.
  - intros r z [X Y]. apply B; auto.
  - intros r z N. apply C. unfold on in N. destruct (Rle_dec r_min r), (Rle_dec r r_max), (Rle_dec z_min z), (Rle_dec z z_max); try (left; split; [reflexivity|lra]); try (right; split; [reflexivity|lra]).
Qed.
Lemma b2_main : exists P Pr Pz Prr Pzz Prz BR BRr BRz BRrr BRzz BRrz BP BPr BPz BPrr BPzz BPrz BZ BZr BZz BZrr BZzz BZrz,
  surface psi P Pr Pz Prr Pzz Prz /\ surface B_r BR BRr BRz BRrr BRzz BRrz /\ surface B_phi BP BPr BPz BPrr BPzz BPrz /\ surface B_z BZ BZr BZz BZrr BZzz BZrz /\
  let B r (phi : R) z := flux_field Pr Pz BR BP BZ r z in
  (forall r phi z, on r z ->
     B_field_eval_psi (BF_2DS d) r phi z = Out 0 (P r z) /\
     B_field_eval_psi_dpsi (BF_2DS d) r phi z = Out 0 (P r z, V (Pr r z) 0 (Pz r z)) /\
     (r <> 0 -> B r phi z <> vzero -> B_field_eval_B (BF_2DS d) r phi z = Out 0 (B r phi z) /\
        exists D, B_field_eval_B_dB (BF_2DS d) r phi z = Out 0 D /\ V (D 0%nat) (D 4%nat) (D 8%nat) = B r phi z /\
          divergence D r = BR r z / r + BRr r z + BZz r z /\ (inside r z -> jac_of B r phi z D)) /\
     (r <> 0 -> B r phi z = vzero -> exists e e', e <> 0%Z /\ e' <> 0%Z /\ B_field_eval_B (BF_2DS d) r phi z = Out e (V 1 0 0) /\ exists D, B_field_eval_B_dB (BF_2DS d) r phi z = Out e' D)) /\
  (forall r phi z, ~ on r z -> exists e1 e2 e3 e4 D, (e1 <> 0 /\ e2 <> 0 /\ e3 <> 0 /\ e4 <> 0)%Z /\
     B_field_eval_psi (BF_2DS d) r phi z = Out e1 1 /\ B_field_eval_psi_dpsi (BF_2DS d) r phi z = Out e2 (1, vzero) /\
     B_field_eval_B (BF_2DS d) r phi z = Out e3 (V 1 0 0) /\ B_field_eval_B_dB (BF_2DS d) r phi z = Out e4 D).
Proof.
  destruct b2_setups as (p & br & bp & bz & E1 & E2 & E3 & E4 & ->).
  destruct (surf_of _ _ E1) as (P & Pr & Pz & Prr & Pzz & Prz & SP & VP & XP).
  destruct (surf_of _ _ E2) as (BR & BRr & BRz & BRrr & BRzz & BRrz & SR & VR & XR).
  destruct (surf_of _ _ E3) as (BP & BPr & BPz & BPrr & BPzz & BPrz & SF & VF & XF).
  destruct (surf_of _ _ E4) as (BZ & BZr & BZz & BZrr & BZzz & BZrz & SZ & VZ & XZ).
  exists P, Pr, Pz, Prr, Pzz, Prz, BR, BRr, BRz, BRrr, BRzz, BRrz, BP, BPr, BPz, BPrr, BPzz, BPrz, BZ, BZr, BZz, BZrr, BZzz, BZrz.
  split; [exact SP|]. split; [exact SR|]. split; [exact SF|]. split; [exact SZ|]. intros B. split.
  - intros r phi z O. destruct (VP r z O) as [VP1 VP2]. destruct (VR r z O) as [VR1 VR2]. destruct (VF r z O) as [VF1 VF2]. destruct (VZ r z O) as [VZ1 VZ2].
    unfold B_field_eval_psi, B_field_eval_psi_dpsi, B_field_eval_B, B_field_eval_B_dB, B_2DS_eval_psi, B_2DS_eval_psi_dpsi, B_2DS_eval_B, B_2DS_eval_B_dB. cbn [b2psi b2r b2phi b2z].
    rewrite VP1, VP2, VR1, VR2, VF1, VF2, VZ1, VZ2. cbn [one three wrapup]. split; [reflexivity|]. split; [reflexivity|]. split.
    + intros R0 N. rewrite !divide_nz by exact R0. cbv zeta.
      destruct (no_field (BR r z - Pz r z / r) (BP r z) (BZ r z + Pr r z / r)) eqn:NF; [apply no_field_spec in NF; contradiction|]. split; [reflexivity|].
      eexists. split; [reflexivity|]. cbv beta iota. split; [reflexivity|]. split; [unfold divergence; field; exact R0|].
      intros [IR IZ]. destruct (surf_der _ _ _ _ _ _ _ _ _ _ _ _ _ SP r z IR IZ) as (P1 & P2 & P3 & P4 & P5 & P6).
      destruct (surf_der _ _ _ _ _ _ _ _ _ _ _ _ _ SR r z IR IZ) as (Q1 & Q2 & _). destruct (surf_der _ _ _ _ _ _ _ _ _ _ _ _ _ SF r z IR IZ) as (F1 & F2 & _).
      destruct (surf_der _ _ _ _ _ _ _ _ _ _ _ _ _ SZ r z IR IZ) as (Z1 & Z2 & _).
      split; [reflexivity|]. intros k c [K|[K|[K|[]]]]; injection K as <- <-; cbn [Nat.add]; unfold B, flux_field; cbn [vx vy vz].
      * split; [|split].
        -- eapply d_eq; [apply d_minus; [exact Q1|apply d_div; [exact P5|apply d_id|exact R0]]|]. cbv beta. field. exact R0.
        -- apply d_const.
        -- eapply d_eq; [apply d_minus; [exact Q2|apply d_div; [exact P6|apply d_const|exact R0]]|]. cbv beta. field. exact R0.
      * split; [exact F1|]. split; [apply d_const|exact F2].
      * split; [|split].
        -- eapply d_eq; [apply d_plus; [exact Z1|apply d_div; [exact P3|apply d_id|exact R0]]|]. cbv beta. field. exact R0.
        -- apply d_const.
        -- eapply d_eq; [apply d_plus; [exact Z2|apply d_div; [exact P4|apply d_const|exact R0]]|]. cbv beta. field. exact R0.
    + intros R0 N. rewrite !divide_nz by exact R0. cbv zeta. pose proof (proj2 (no_field_spec _ _ _) N) as NF. rewrite NF. cbn [wrapup].
      do 2 eexists. split; [|split; [|split; [reflexivity|]]]; [| |eexists; reflexivity]; nzerr.
  - intros r phi z O. destruct (XP r z O) as [VP1 VP2]. destruct (XR r z O) as [VR1 VR2]. destruct (XF r z O) as [VF1 VF2]. destruct (XZ r z O) as [VZ1 VZ2].
    unfold B_field_eval_psi, B_field_eval_psi_dpsi, B_field_eval_B, B_field_eval_B_dB, B_2DS_eval_psi, B_2DS_eval_psi_dpsi, B_2DS_eval_B, B_2DS_eval_B_dB. cbn [b2psi b2r b2phi b2z].
    rewrite VP1, VP2, VR1, VR2, VF1, VF2, VZ1, VZ2. cbn [one three wrapup].
    do 5 eexists. split; [|split; [reflexivity|split; [reflexivity|split; reflexivity]]]. repeat split; nzerr.
Qed.
End b2.

(** a bilinear table gives the bilinear surface *)
Lemma bilinear_exact : forall n_r n_z r_min r_max z_min z_max f F Fx Fy Fxx Fyy Fxy p q u v, (2 <= n_r)%nat -> (2 <= n_z)%nat -> r_min < r_max -> z_min < z_max ->
  surface_interpolant n_r n_z NATURALBC NATURALBC r_min r_max z_min z_max f F Fx Fy Fxx Fyy Fxy ->
  (forall i j, (i < n_r)%nat -> (j < n_z)%nat -> let x := r_min + INR i * step n_r NATURALBC r_min r_max in let y := z_min + INR j * step n_z NATURALBC z_min z_max in f i j = p + q * x + u * y + v * x * y) ->
  forall x y, r_min <= x <= r_max -> z_min <= y <= z_max -> F x y = p + q * x + u * y + v * x * y.
Proof.
  intros n_r n_z r_min r_max z_min z_max f F Fx Fy Fxx Fyy Fxy p q u v NR NZ MR MZ S Z x y A B.
  pose proof (bilinear_surface n_r n_z r_min r_max z_min z_max p q u v NR NZ MR MZ) as S0. cbv zeta in S0.
  refine (surface_unique n_r n_z NATURALBC NATURALBC r_min r_max z_min z_max f F Fx Fy Fxx Fyy Fxy (fun x y => p + q * x + u * y + v * x * y)
     (fun x y => q + v * y) (fun x y => u + v * x) (fun _ _ => 0) (fun _ _ => 0) (fun _ _ => v) (nat_enough _ NR) (nat_enough _ NZ) MR MZ S _ x y A B).
  destruct S0 as (_ & S0). split; [|exact S0]. intros i j I J. symmetry. now apply Z.
Qed.
(** with its derivatives inside *)
Lemma bilinear_exact_der : forall n_r n_z r_min r_max z_min z_max f F Fx Fy Fxx Fyy Fxy p q u v, (2 <= n_r)%nat -> (2 <= n_z)%nat -> r_min < r_max -> z_min < z_max ->
  surface_interpolant n_r n_z NATURALBC NATURALBC r_min r_max z_min z_max f F Fx Fy Fxx Fyy Fxy ->
  (forall i j, (i < n_r)%nat -> (j < n_z)%nat -> let x := r_min + INR i * step n_r NATURALBC r_min r_max in let y := z_min + INR j * step n_z NATURALBC z_min z_max in f i j = p + q * x + u * y + v * x * y) ->
  forall x y, r_min < x < r_max -> z_min < y < z_max -> Fx x y = q + v * y /\ Fy x y = u + v * x.
Proof.
  intros n_r n_z r_min r_max z_min z_max f F Fx Fy Fxx Fyy Fxy p q u v NR NZ MR MZ S Z x y X Y.
  pose proof (bilinear_exact _ _ _ _ _ _ _ _ _ _ _ _ _ _ _ _ _ NR NZ MR MZ S Z) as E.
  destruct (surf_der _ _ _ _ _ _ _ _ _ _ _ _ _ S x y X Y) as (P1 & P2 & _). split.
  - eapply (d_uniq (fun t => F t y)); [exact P1|]. apply (d_near (fun t => p + q * t + u * y + v * t * y)); [|der; ring]. exists r_min, r_max. split; [exact X|]. intros t T. symmetry. apply E; lra.
  - eapply (d_uniq (F x)); [exact P2|]. apply (d_near (fun t => p + q * x + u * t + v * x * t)); [|der; ring]. exists z_min, z_max. split; [exact Y|]. intros t T. symmetry. apply E; lra.
Qed.
(** without tabulated poloidal components the field is divergence free *)
Lemma b2_divfree : forall junk n_r n_z r_min r_max z_min z_max axis_r axis_z psi0 psi1 psi B_r B_phi B_z d, (2 <= n_r)%nat -> (2 <= n_z)%nat -> r_min < r_max -> z_min < z_max ->
  B_2DS_init junk n_r r_min r_max n_z z_min z_max axis_r axis_z psi0 psi1 psi B_r B_phi B_z = IOk d ->
  (forall k, (k < n_r * n_z)%nat -> B_r k = 0 /\ B_z k = 0) ->
  forall r phi z D, r <> 0 -> r_min < r < r_max -> z_min < z < z_max -> B_field_eval_B_dB (BF_2DS d) r phi z = Out 0 D -> divergence D r = 0.
Proof.
  intros junk n_r n_z r_min r_max z_min z_max axis_r axis_z psi0 psi1 psi B_r B_phi B_z d NR NZ MR MZ OK Z0 r phi z D R0 IR IZ E.
  destruct (b2_main junk n_r n_z r_min r_max z_min z_max axis_r axis_z psi0 psi1 psi B_r B_phi B_z d NR NZ MR MZ OK)
    as (P & Pr & Pz & Prr & Pzz & Prz & BR & BRr & BRz & BRrr & BRzz & BRrz & BP & BPr & BPz & BPrr & BPzz & BPrz & BZ & BZr & BZz & BZrr & BZzz & BZrz & SP & SR & SF & SZ & IN & _).
  cbv zeta in IN. destruct (IN r phi z ltac:(lra)) as (_ & _ & A & B).
  assert (T : forall f, (forall k, (k < n_r * n_z)%nat -> f k = 0) -> forall i j, (i < n_r)%nat -> (j < n_z)%nat -> let x := r_min + INR i * step n_r NATURALBC r_min r_max in let y := z_min + INR j * step n_z NATURALBC z_min z_max in f (j * n_r + i)%nat = 0 + 0 * x + 0 * y + 0 * x * y).
  { intros f H i j I J. cbv zeta. rewrite H by nia. ring. }
  assert (TR := T B_r (fun k K => proj1 (Z0 k K))). assert (TZ := T B_z (fun k K => proj2 (Z0 k K))).
  destruct (no_field (BR r z - Pz r z / r) (BP r z) (BZ r z + Pr r z / r)) eqn:NF.
  - apply no_field_spec in NF. destruct (B R0 NF) as (e & e' & _ & E' & _ & D' & X). rewrite E in X. injection X as <- _. now contradiction E'.
  - destruct (A R0) as (_ & D' & X & _ & DIV & _); [intro Y; apply (proj2 (no_field_spec _ _ _)) in Y; congruence|].
    rewrite E in X. injection X as <-. rewrite DIV.
    rewrite (bilinear_exact _ _ _ _ _ _ _ _ _ _ _ _ _ 0 0 0 0 NR NZ MR MZ SR TR r z) by lra.
    rewrite (proj1 (bilinear_exact_der _ _ _ _ _ _ _ _ _ _ _ _ _ 0 0 0 0 NR NZ MR MZ SR TR r z IR IZ)).
    rewrite (proj2 (bilinear_exact_der _ _ _ _ _ _ _ _ _ _ _ _ _ 0 0 0 0 NR NZ MR MZ SZ TZ r z IR IZ)). field. exact R0.
Qed.

(** ** Three-dimensional field with axisymmetric flux *)
Section b3.
Context (junk : nat -> R) (p_n_r p_n_z b_n_r b_n_phi b_n_z : nat) (p_r_min p_r_max p_z_min p_z_max b_r_min b_r_max b_phi_min b_phi_max b_z_min b_z_max axis_r axis_z psi0 psi1 : R)
  (psi B_r B_phi B_z : nat -> R) (d : b3ds).
Hypothesis PR : (2 <= p_n_r)%nat.
Hypothesis PZ : (2 <= p_n_z)%nat.
Hypothesis NR : (2 <= b_n_r)%nat.
Hypothesis NP : (3 <= b_n_phi)%nat.
Hypothesis NZ : (2 <= b_n_z)%nat.
Hypothesis MPR : p_r_min < p_r_max.
Hypothesis MPZ : p_z_min < p_z_max.
Hypothesis MR : b_r_min < b_r_max.
Hypothesis MP : b_phi_min < b_phi_max.
Hypothesis MZ : b_z_min < b_z_max.
Let setup f := interp3Dcomp_setup junk f b_n_r b_n_phi b_n_z NATURALBC PERIODICBC NATURALBC b_r_min b_r_max b_phi_min b_phi_max b_z_min b_z_max.
Let volume (f : nat -> R) := volume_interpolant b_n_r b_n_phi b_n_z NATURALBC PERIODICBC NATURALBC b_r_min b_r_max b_phi_min b_phi_max b_z_min b_z_max (fun i j k => f (k * b_n_phi * b_n_r + j * b_n_r + i)%nat).
Let surface (f : nat -> R) := surface_interpolant p_n_r p_n_z NATURALBC NATURALBC p_r_min p_r_max p_z_min p_z_max (fun i j => f (j * p_n_r + i)%nat).
Definition on2 (a b c e r z : R) := a <= r <= b /\ c <= z <= e.
Definition in2 (a b c e r z : R) := a < r < b /\ c < z < e.
Let onB := on2 b_r_min b_r_max b_z_min b_z_max.
Let onP := on2 p_r_min p_r_max p_z_min p_z_max.
Lemma on2_dec : forall a b c e r z, {on2 a b c e r z} + {~ on2 a b c e r z}.
Proof. intros. unfold on2. destruct (Rle_dec a r), (Rle_dec r b), (Rle_dec c z), (Rle_dec z e); try (right; lra). left; lra. Qed.
Lemma vol_of : forall f s, setup f = Val s -> exists F Fx Fy Fz Fxx Fyy Fzz Fxy Fxz Fyz, volume f F Fx Fy Fz Fxx Fyy Fzz Fxy Fxz Fyz /\
  (forall r p z, onB r z -> interp3Dcomp_eval_f s r p z = Val (F r p z) /\ interp3Dcomp_eval_df s r p z = Val (F r p z, Fx r p z, Fy r p z, Fz r p z, Fxx r p z, Fyy r p z, Fzz r p z, Fxy r p z, Fxz r p z, Fyz r p z)) /\
  (forall r p z, ~ onB r z -> interp3Dcomp_eval_f s r p z = Err /\ interp3Dcomp_eval_df s r p z = Err).
Proof.
  intros f s H. destruct (interp3Dcomp_is_spline junk f b_n_r b_n_phi b_n_z NATURALBC PERIODICBC NATURALBC b_r_min b_r_max b_phi_min b_phi_max b_z_min b_z_max s (nat_enough _ NR) (or_intror (conj eq_refl NP)) (nat_enough _ NZ) MR MP MZ H)
    as (F & Fx & Fy & Fz & Fxx & Fyy & Fzz & Fxy & Fxz & Fyz & A & B & C).
  exists F, Fx, Fy, Fz, Fxx, Fyy, Fzz, Fxy, Fxz, Fyz. split; [exact A|]. split.
  - intros r p z [X Y]. apply B; auto. discriminate.
  - intros r p z N. apply C. unfold onB, on2 in N. destruct (Rle_dec b_r_min r), (Rle_dec r b_r_max), (Rle_dec b_z_min z), (Rle_dec z b_z_max); try (left; split; [reflexivity|lra]); try (right; right; split; [reflexivity|lra]).
Qed.
(** what the dispatcher returns for three splines and, if wanted, a flux *)
Definition flux_field3 (Pr Pz : R -> R -> R) (BR BP BZ : R -> R -> R -> R) (r p z : R) : vec := V (BR r p z - Pz r z / r) (BP r p z) (BZ r p z + Pr r z / r).
Lemma b3_main :
  B_3DS_init junk p_n_r p_r_min p_r_max p_n_z p_z_min p_z_max b_n_r b_r_min b_r_max b_n_phi b_phi_min b_phi_max b_n_z b_z_min b_z_max axis_r axis_z psi0 psi1 psi B_r B_phi B_z = IOk d ->
  exists P Pr Pz Prr Pzz Prz BR BRr BRp BRz BR4 BR5 BR6 BR7 BR8 BR9 BP BPr BPp BPz BP4 BP5 BP6 BP7 BP8 BP9 BZ BZr BZp BZz BZ4 BZ5 BZ6 BZ7 BZ8 BZ9,
  surface psi P Pr Pz Prr Pzz Prz /\ volume B_r BR BRr BRp BRz BR4 BR5 BR6 BR7 BR8 BR9 /\ volume B_phi BP BPr BPp BPz BP4 BP5 BP6 BP7 BP8 BP9 /\ volume B_z BZ BZr BZp BZz BZ4 BZ5 BZ6 BZ7 BZ8 BZ9 /\
  let B := flux_field3 Pr Pz BR BP BZ in
  (forall r phi z, onP r z -> B_field_eval_psi (BF_3DS d) r phi z = Out 0 (P r z) /\ B_field_eval_psi_dpsi (BF_3DS d) r phi z = Out 0 (P r z, V (Pr r z) 0 (Pz r z))) /\
  (forall r phi z, onP r z -> onB r z -> r <> 0 -> B r phi z <> vzero -> B_field_eval_B (BF_3DS d) r phi z = Out 0 (B r phi z) /\
        exists D, B_field_eval_B_dB (BF_3DS d) r phi z = Out 0 D /\ V (D 0%nat) (D 4%nat) (D 8%nat) = B r phi z /\
          divergence D r = BR r phi z / r + BRr r phi z + BPp r phi z / r + BZz r phi z /\ (in2 p_r_min p_r_max p_z_min p_z_max r z -> in2 b_r_min b_r_max b_z_min b_z_max r z -> jac_of B r phi z D)) /\
  (forall r phi z, ~ onP r z -> exists e e', e <> 0%Z /\ e' <> 0%Z /\ B_field_eval_psi (BF_3DS d) r phi z = Out e 1 /\ B_field_eval_psi_dpsi (BF_3DS d) r phi z = Out e' (1, vzero)) /\
  (forall r phi z, ~ onP r z \/ ~ onB r z \/ (r <> 0 /\ B r phi z = vzero) -> exists e e' D, e <> 0%Z /\ e' <> 0%Z /\ B_field_eval_B (BF_3DS d) r phi z = Out e (V 1 0 0) /\ B_field_eval_B_dB (BF_3DS d) r phi z = Out e' D).
Proof.
  intros OK. unfold B_3DS_init in OK. fold (setup B_r) in OK. fold (setup B_phi) in OK. fold (setup B_z) in OK.
  destruct (interp2Dcomp_setup junk psi p_n_r p_n_z NATURALBC NATURALBC p_r_min p_r_max p_z_min p_z_max) as [| |p] eqn:E1; destruct (setup B_r) as [| |br] eqn:E2; destruct (setup B_phi) as [| |bp] eqn:E3; destruct (setup B_z) as [| |bz] eqn:E4; try discriminate.
  assert (d = B3 p br bp bz psi0 psi1 axis_r axis_z) as ->. { destruct (B_3DS_eval_B (B3 p br bp bz psi0 psi1 axis_r axis_z) axis_r 0 axis_z); try discriminate; now injection OK. } clear OK.
  destruct (surf_of junk p_n_r p_n_z p_r_min p_r_max p_z_min p_z_max PR PZ MPR MPZ _ _ E1) as (P & Pr & Pz & Prr & Pzz & Prz & SP & VP & XP).
  destruct (vol_of _ _ E2) as (BR & BRr & BRp & BRz & BR4 & BR5 & BR6 & BR7 & BR8 & BR9 & SR & VR & XR).
  destruct (vol_of _ _ E3) as (BP & BPr & BPp & BPz & BP4 & BP5 & BP6 & BP7 & BP8 & BP9 & SF & VF & XF).
  destruct (vol_of _ _ E4) as (BZ & BZr & BZp & BZz & BZ4 & BZ5 & BZ6 & BZ7 & BZ8 & BZ9 & SZ & VZ & XZ).
  exists P, Pr, Pz, Prr, Pzz, Prz, BR, BRr, BRp, BRz, BR4, BR5, BR6, BR7, BR8, BR9, BP, BPr, BPp, BPz, BP4, BP5, BP6, BP7, BP8, BP9, BZ, BZr, BZp, BZz, BZ4, BZ5, BZ6, BZ7, BZ8, BZ9.
  split; [exact SP|]. split; [exact SR|]. split; [exact SF|]. split; [exact SZ|]. intros B.
  unfold B_field_eval_psi, B_field_eval_psi_dpsi, B_field_eval_B, B_field_eval_B_dB, B_3DS_eval_psi, B_3DS_eval_psi_dpsi, B_3DS_eval_B, B_3DS_eval_B_dB. cbn [b3psi b3r b3phi b3z].
  split; [|split; [|split]].
  - intros r phi z O. destruct (VP r z O) as [VP1 VP2]. rewrite VP1, VP2. now split.
  - intros r phi z OP OB R0 N. destruct (VP r z OP) as [VP1 VP2]. destruct (VR r phi z OB) as [VR1 VR2]. destruct (VF r phi z OB) as [VF1 VF2]. destruct (VZ r phi z OB) as [VZ1 VZ2].
    rewrite VP2, VR1, VR2, VF1, VF2, VZ1, VZ2. cbn [one three]. rewrite !divide_nz by exact R0. cbv zeta.
    destruct (no_field (BR r phi z - Pz r z / r) (BP r phi z) (BZ r phi z + Pr r z / r)) eqn:NF; [apply no_field_spec in NF; contradiction|]. split; [reflexivity|].
    eexists. split; [reflexivity|]. cbv beta iota. split; [reflexivity|]. split; [unfold divergence; field; exact R0|].
    intros [IP IPZ] [IR IZ]. destruct (surf_der _ _ _ _ _ _ _ _ _ _ _ _ _ SP r z IP IPZ) as (P1 & P2 & P3 & P4 & P5 & P6).
    destruct (vol_der _ _ _ _ _ _ _ _ _ _ _ _ _ _ _ _ _ _ _ _ SR r phi z IR IZ) as (Q1 & Q2 & Q3). destruct (vol_der _ _ _ _ _ _ _ _ _ _ _ _ _ _ _ _ _ _ _ _ SF r phi z IR IZ) as (F1 & F2 & F3).
    destruct (vol_der _ _ _ _ _ _ _ _ _ _ _ _ _ _ _ _ _ _ _ _ SZ r phi z IR IZ) as (Z1 & Z2 & Z3).
    split; [reflexivity|]. intros k c [K|[K|[K|[]]]]; injection K as <- <-; cbn [Nat.add]; unfold B, flux_field3; cbn [vx vy vz].
    + split; [|split].
      * eapply d_eq; [apply d_minus; [exact Q1|apply d_div; [exact P5|apply d_id|exact R0]]|]. cbv beta. field. exact R0.
      * eapply d_eq; [apply d_minus; [exact Q2|apply d_const]|]. ring.
      * eapply d_eq; [apply d_minus; [exact Q3|apply d_div; [exact P6|apply d_const|exact R0]]|]. cbv beta. field. exact R0.
    + split; [exact F1|]. split; [exact F2|exact F3].
    + split; [|split].
      * eapply d_eq; [apply d_plus; [exact Z1|apply d_div; [exact P3|apply d_id|exact R0]]|]. cbv beta. field. exact R0.
      * eapply d_eq; [apply d_plus; [exact Z2|apply d_const]|]. ring.
      * eapply d_eq; [apply d_plus; [exact Z3|apply d_div; [exact P4|apply d_const|exact R0]]|]. cbv beta. field. exact R0.
  - intros r phi z O. destruct (XP r z O) as [VP1 VP2]. rewrite VP1, VP2. cbn [one wrapup]. do 2 eexists. split; [|split; [|split; reflexivity]]; nzerr.
  - intros r phi z H. destruct (on2_dec b_r_min b_r_max b_z_min b_z_max r z) as [OB|OB].
    + destruct (VR r phi z OB) as [VR1 VR2]. destruct (VF r phi z OB) as [VF1 VF2]. destruct (VZ r phi z OB) as [VZ1 VZ2]. rewrite VR1, VR2, VF1, VF2, VZ1, VZ2. cbn [three].
      destruct (on2_dec p_r_min p_r_max p_z_min p_z_max r z) as [OP|OP].
      * destruct H as [H|[H|[R0 H]]]; [contradiction|contradiction|]. destruct (VP r z OP) as [VP1 VP2]. rewrite VP2. cbn [one]. rewrite !divide_nz by exact R0. cbv zeta. pose proof (proj2 (no_field_spec _ _ _) H) as NF. rewrite NF. cbn [wrapup].
        do 3 eexists. split; [|split; [|split; reflexivity]]; nzerr.
      * destruct (XP r z OP) as [VP1 VP2]. rewrite VP2. cbn [one wrapup]. do 3 eexists. split; [|split; [|split; reflexivity]]; nzerr.
    + destruct (XR r phi z OB) as [VR1 VR2]. destruct (XF r phi z OB) as [VF1 VF2]. destruct (XZ r phi z OB) as [VZ1 VZ2]. rewrite VR1, VR2, VF1, VF2, VZ1, VZ2. cbn [three wrapup]. do 3 eexists. split; [|split; [|split; reflexivity]]; nzerr.
Qed.
End b3.

(** ** Stellarator field *)
Lemma sts_main : forall junk p_n_r p_n_phi p_n_z b_n_r b_n_phi b_n_z p_r_min p_r_max p_phi_min p_phi_max p_z_min p_z_max b_r_min b_r_max b_phi_min b_phi_max b_z_min b_z_max
    naxis axis_min axis_max axis_r axis_z psi0 psi1 psi B_r B_phi B_z d,
  (2 <= p_n_r)%nat -> (3 <= p_n_phi)%nat -> (2 <= p_n_z)%nat -> (2 <= b_n_r)%nat -> (3 <= b_n_phi)%nat -> (2 <= b_n_z)%nat ->
  p_r_min < p_r_max -> p_phi_min < p_phi_max -> p_z_min < p_z_max -> b_r_min < b_r_max -> b_phi_min < b_phi_max -> b_z_min < b_z_max ->
  B_STS_init junk p_n_r p_r_min p_r_max p_n_phi p_phi_min p_phi_max p_n_z p_z_min p_z_max b_n_r b_r_min b_r_max b_n_phi b_phi_min b_phi_max b_n_z b_z_min b_z_max
    naxis axis_min axis_max axis_r axis_z psi0 psi1 psi B_r B_phi B_z = IOk d ->
  let volume (f : nat -> R) := volume_interpolant b_n_r b_n_phi b_n_z NATURALBC PERIODICBC NATURALBC b_r_min b_r_max b_phi_min b_phi_max b_z_min b_z_max (fun i j k => f (k * b_n_phi * b_n_r + j * b_n_r + i)%nat) in
  exists P Pr Pp Pz P4 P5 P6 P7 P8 P9 BR BRr BRp BRz BR4 BR5 BR6 BR7 BR8 BR9 BP BPr BPp BPz BP4 BP5 BP6 BP7 BP8 BP9 BZ BZr BZp BZz BZ4 BZ5 BZ6 BZ7 BZ8 BZ9,
  volume_interpolant p_n_r p_n_phi p_n_z NATURALBC PERIODICBC NATURALBC p_r_min p_r_max p_phi_min p_phi_max p_z_min p_z_max (fun i j k => psi (k * p_n_phi * p_n_r + j * p_n_r + i)%nat) P Pr Pp Pz P4 P5 P6 P7 P8 P9 /\
  volume B_r BR BRr BRp BRz BR4 BR5 BR6 BR7 BR8 BR9 /\ volume B_phi BP BPr BPp BPz BP4 BP5 BP6 BP7 BP8 BP9 /\ volume B_z BZ BZr BZp BZz BZ4 BZ5 BZ6 BZ7 BZ8 BZ9 /\
  let B r p z := V (BR r p z) (BP r p z) (BZ r p z) in
  let onP := on2 p_r_min p_r_max p_z_min p_z_max in let onB := on2 b_r_min b_r_max b_z_min b_z_max in
  (forall r phi z, onP r z -> B_field_eval_psi (BF_STS d) r phi z = Out 0 (P r phi z) /\ B_field_eval_psi_dpsi (BF_STS d) r phi z = Out 0 (P r phi z, V (Pr r phi z) (Pp r phi z) (Pz r phi z))) /\
  (forall r phi z, onB r z -> B r phi z <> vzero -> B_field_eval_B (BF_STS d) r phi z = Out 0 (B r phi z) /\
        exists D, B_field_eval_B_dB (BF_STS d) r phi z = Out 0 D /\ V (D 0%nat) (D 4%nat) (D 8%nat) = B r phi z /\
          (in2 b_r_min b_r_max b_z_min b_z_max r z -> jac_of B r phi z D)) /\
  (forall r phi z, ~ onP r z -> exists e e', e <> 0%Z /\ e' <> 0%Z /\ B_field_eval_psi (BF_STS d) r phi z = Out e 1 /\ B_field_eval_psi_dpsi (BF_STS d) r phi z = Out e' (1, vzero)) /\
  (forall r phi z, ~ onB r z \/ B r phi z = vzero -> exists e e' D, e <> 0%Z /\ e' <> 0%Z /\ B_field_eval_B (BF_STS d) r phi z = Out e (V 1 0 0) /\ B_field_eval_B_dB (BF_STS d) r phi z = Out e' D).
Proof.
  intros junk p_n_r p_n_phi p_n_z b_n_r b_n_phi b_n_z p_r_min p_r_max p_phi_min p_phi_max p_z_min p_z_max b_r_min b_r_max b_phi_min b_phi_max b_z_min b_z_max
    naxis axis_min axis_max axis_r axis_z psi0 psi1 psi B_r B_phi B_z d PR PP PZ NR NP NZ MPR MPP MPZ MR MP MZ OK volume.
  unfold B_STS_init in OK. cbv zeta in OK.
  destruct (interp3Dcomp_setup junk psi _ _ _ _ _ _ _ _ _ _ _ _) as [| |p] eqn:E1; try discriminate.
  destruct (interp3Dcomp_setup junk B_r _ _ _ _ _ _ _ _ _ _ _ _) as [| |br] eqn:E2; try discriminate.
  destruct (interp3Dcomp_setup junk B_phi _ _ _ _ _ _ _ _ _ _ _ _) as [| |bp] eqn:E3; try discriminate.
  destruct (interp3Dcomp_setup junk B_z _ _ _ _ _ _ _ _ _ _ _ _) as [| |bz] eqn:E4; try discriminate.
  set (d0 := BS p br bp bz psi0 psi1 (linint1D_init axis_r naxis PERIODICBC axis_min axis_max) (linint1D_init axis_z naxis PERIODICBC axis_min axis_max)) in *.
  assert (d = d0) as ->.
  { destruct (B_STS_get_axis_rz d0 0) as [[ar az]| | |]; try discriminate.
    destruct (B_STS_eval_psi d0 ar 0 az), (B_STS_eval_B d0 ar 0 az); try discriminate; (destruct (_ =? 0)%Z; [now injection OK|discriminate]). }
  clear OK.
  destruct (vol_of junk p_n_r p_n_phi p_n_z p_r_min p_r_max p_phi_min p_phi_max p_z_min p_z_max PR PP PZ MPR MPP MPZ _ _ E1) as (P & Pr & Pp & Pz & P4 & P5 & P6 & P7 & P8 & P9 & SP & VP & XP).
  destruct (vol_of junk b_n_r b_n_phi b_n_z b_r_min b_r_max b_phi_min b_phi_max b_z_min b_z_max NR NP NZ MR MP MZ _ _ E2) as (BR & BRr & BRp & BRz & BR4 & BR5 & BR6 & BR7 & BR8 & BR9 & SR & VR & XR).
  destruct (vol_of junk b_n_r b_n_phi b_n_z b_r_min b_r_max b_phi_min b_phi_max b_z_min b_z_max NR NP NZ MR MP MZ _ _ E3) as (BP & BPr & BPp & BPz & BP4 & BP5 & BP6 & BP7 & BP8 & BP9 & SF & VF & XF).
  destruct (vol_of junk b_n_r b_n_phi b_n_z b_r_min b_r_max b_phi_min b_phi_max b_z_min b_z_max NR NP NZ MR MP MZ _ _ E4) as (BZ & BZr & BZp & BZz & BZ4 & BZ5 & BZ6 & BZ7 & BZ8 & BZ9 & SZ & VZ & XZ).
  exists P, Pr, Pp, Pz, P4, P5, P6, P7, P8, P9, BR, BRr, BRp, BRz, BR4, BR5, BR6, BR7, BR8, BR9, BP, BPr, BPp, BPz, BP4, BP5, BP6, BP7, BP8, BP9, BZ, BZr, BZp, BZz, BZ4, BZ5, BZ6, BZ7, BZ8, BZ9.
  split; [exact SP|]. split; [exact SR|]. split; [exact SF|]. split; [exact SZ|]. intros B onP onB.
  unfold B_field_eval_psi, B_field_eval_psi_dpsi, B_field_eval_B, B_field_eval_B_dB, B_STS_eval_psi, B_STS_eval_psi_dpsi, B_STS_eval_B, B_STS_eval_B_dB, d0. cbn [bspsi bsr bsphi bsz].
  split; [|split; [|split]].
  - intros r phi z O. destruct (VP r phi z O) as [VP1 VP2]. rewrite VP1, VP2. now split.
  - intros r phi z OB N. destruct (VR r phi z OB) as [VR1 VR2]. destruct (VF r phi z OB) as [VF1 VF2]. destruct (VZ r phi z OB) as [VZ1 VZ2].
    rewrite VR1, VR2, VF1, VF2, VZ1, VZ2. cbn [one three].
    destruct (no_field (BR r phi z) (BP r phi z) (BZ r phi z)) eqn:NF; [apply no_field_spec in NF; contradiction|]. split; [reflexivity|].
    eexists. split; [reflexivity|]. cbv beta iota. split; [reflexivity|].
    intros [IR IZ].
    destruct (vol_der _ _ _ _ _ _ _ _ _ _ _ _ _ _ _ _ _ _ _ _ SR r phi z IR IZ) as (Q1 & Q2 & Q3). destruct (vol_der _ _ _ _ _ _ _ _ _ _ _ _ _ _ _ _ _ _ _ _ SF r phi z IR IZ) as (F1 & F2 & F3).
    destruct (vol_der _ _ _ _ _ _ _ _ _ _ _ _ _ _ _ _ _ _ _ _ SZ r phi z IR IZ) as (Z1 & Z2 & Z3).
    split; [reflexivity|]. intros k c [K|[K|[K|[]]]]; injection K as <- <-; cbn [Nat.add]; unfold B; cbn [vx vy vz]; auto.
  - intros r phi z O. destruct (XP r phi z O) as [VP1 VP2]. rewrite VP1, VP2. cbn [one wrapup]. do 2 eexists. split; [|split; [|split; reflexivity]]; nzerr.
  - intros r phi z H. destruct (on2_dec b_r_min b_r_max b_z_min b_z_max r z) as [OB|OB].
    + destruct H as [H|H]; [contradiction|].
      destruct (VR r phi z OB) as [VR1 VR2]. destruct (VF r phi z OB) as [VF1 VF2]. destruct (VZ r phi z OB) as [VZ1 VZ2]. rewrite VR1, VR2, VF1, VF2, VZ1, VZ2. cbn [three].
      pose proof (proj2 (no_field_spec _ _ _) H) as NF. rewrite NF. cbn [wrapup].
      do 3 eexists. split; [|split; [|split; reflexivity]]; nzerr.
    + destruct (XR r phi z OB) as [VR1 VR2]. destruct (XF r phi z OB) as [VF1 VF2]. destruct (XZ r phi z OB) as [VZ1 VZ2]. rewrite VR1, VR2, VF1, VF2, VZ1, VZ2. cbn [three wrapup]. do 3 eexists. split; [|split; [|split; reflexivity]]; nzerr.
Qed.

(** ** Normalised flux *)
Definition spline_or_gs (B : bfield) : Prop := match B with BF_TC _ | BF_unknown => False | _ => True end.
Definition stellarator (B : bfield) : Prop := match B with BF_STS _ => True | _ => False end.
Definition norm_psi (B : bfield) (psi : R) : R := (psi - fst (psi_limits B)) / (snd (psi_limits B) - fst (psi_limits B)).
Definition rho_slope (B : bfield) (psi : R) : R := 1 / (2 * (snd (psi_limits B) - fst (psi_limits B)) * sqrt (norm_psi B psi)).
Lemma negative_spec : forall u, negative u = true <-> u < 0.
Proof. intro u. unfold negative. destruct (Rlt_dec u 0); split; intro; auto; try discriminate; contradiction. Qed.
Lemma nonpositive_spec : forall u, nonpositive u = true <-> u <= 0.
Proof. intro u. unfold nonpositive. destruct (Rle_dec u 0); split; intro; auto; try discriminate; contradiction. Qed.
Lemma negative_no : forall u, 0 <= u -> negative u = false.
Proof. intros u H. destruct (negative u) eqn:E; auto. apply negative_spec in E. lra. Qed.
Lemma nonpositive_no : forall u, 0 < u -> nonpositive u = false.
Proof. intros u H. destruct (nonpositive u) eqn:E; auto. apply nonpositive_spec in E. lra. Qed.
Lemma divide_z : forall B y (k : fres B), y = 0 -> divide y k = FDiv0.
Proof. intros B y k H. unfold divide. destruct (Req_EM_T y 0); [reflexivity|contradiction]. Qed.
Lemma rho_scale : forall delta rho (d : vec), delta <> 0 -> rho <> 0 -> V (vx d / (2 * delta * rho)) (vy d / (2 * delta * rho)) (vz d / (2 * delta * rho)) = vscal (1 / (2 * delta * rho)) d.
Proof. intros delta rho [a b c] D R0. unfold vscal. cbn [vx vy vz]. f_equal; field; lra. Qed.
Lemma to_rho_pos : forall psi0 psi1 bad e psi d, psi0 <> psi1 -> let u := (psi - psi0) / (psi1 - psi0) in bad u = false -> 0 < u ->
  to_rho psi0 psi1 bad e psi d = FVal (sqrt u, vscal (1 / (2 * (psi1 - psi0) * sqrt u)) d).
Proof. intros psi0 psi1 bad e psi d N u B U. unfold to_rho. fold u. pose proof (sqrt_lt_R0 u U). rewrite divide_nz by lra. rewrite B. rewrite divide_nz by lra. rewrite rho_scale by lra. reflexivity. Qed.
Lemma to_rho_zero : forall psi0 psi1 bad e psi d, psi0 <> psi1 -> let u := (psi - psi0) / (psi1 - psi0) in bad u = false -> u = 0 -> to_rho psi0 psi1 bad e psi d = FDiv0.
Proof. intros psi0 psi1 bad e psi d N u B U. unfold to_rho. fold u. rewrite divide_nz by lra. rewrite B. apply divide_z. rewrite U. apply sqrt_0. Qed.
Lemma to_rho_bad : forall psi0 psi1 bad e psi d, psi0 <> psi1 -> let u := (psi - psi0) / (psi1 - psi0) in bad u = true -> to_rho psi0 psi1 bad e psi d = FErr e.
Proof. intros psi0 psi1 bad e psi d N u B. unfold to_rho. fold u. rewrite divide_nz by lra. now rewrite B. Qed.
Ltac zerr := match goal with H : error_raise ?t ?l ?f = 0%Z |- _ => exfalso; revert H; apply (raise_nonzero t l f); lia end.
(** the flux with its gradient, as seen by the radial coordinate *)
Lemma rho_of_psi : forall B r phi z psi g, spline_or_gs B -> B_field_eval_psi_dpsi B r phi z = Out 0 (psi, g) -> exists e, e <> 0%Z /\
  B_field_eval_rho_drho B r phi z = wrapup (1, vzero) (to_rho (fst (psi_limits B)) (snd (psi_limits B)) (match B with BF_STS _ => nonpositive | _ => negative end) e psi g).
Proof.
  intros B r phi z psi g K H. destruct B as [s|b|b|b|b|]; try contradiction; unfold B_field_eval_psi_dpsi, B_field_eval_rho_drho in *; cbn [psi_limits fst snd].
  - destruct (B_GS_eval_psi_dpsi s r z) as [p q]. cbn [wrapup] in H. injection H as -> ->. eexists. split; [|reflexivity]. nzerr.
  - unfold B_2DS_eval_psi_dpsi, B_2DS_eval_rho_drho in *. destruct (interp2Dcomp_eval_df (b2psi b) r z) as [| |[[[[[a1 a2] a3] a4] a5] a6]]; cbn [one wrapup] in *; try discriminate. injection H as -> <-. eexists. split; [|reflexivity]. nzerr.
  - unfold B_3DS_eval_psi_dpsi, B_3DS_eval_rho_drho in *. destruct (interp2Dcomp_eval_df (b3psi b) r z) as [| |[[[[[a1 a2] a3] a4] a5] a6]]; cbn [one wrapup] in *; try discriminate. injection H as -> <-. eexists. split; [|reflexivity]. nzerr.
  - unfold B_STS_eval_rho_drho, B_STS_eval_psi_dpsi in *. destruct (interp3Dcomp_eval_df (bspsi b) r phi z) as [| |[[[[[[[[[a1 a2] a3] a4] a5] a6] a7] a8] a9] a10]]; cbn [one wrapup] in *; try discriminate. injection H as -> <-. eexists. split; [|reflexivity]. nzerr.
Qed.
Lemma rho_main : forall B r phi z psi g, spline_or_gs B -> fst (psi_limits B) <> snd (psi_limits B) -> B_field_eval_psi_dpsi B r phi z = Out 0 (psi, g) ->
  (0 < norm_psi B psi -> B_field_eval_rho_drho B r phi z = Out 0 (sqrt (norm_psi B psi), vscal (rho_slope B psi) g)) /\
  (norm_psi B psi = 0 -> ~ stellarator B -> B_field_eval_rho_drho B r phi z = ODiv0) /\
  (norm_psi B psi < 0 \/ (norm_psi B psi = 0 /\ stellarator B) -> exists e, e <> 0%Z /\ B_field_eval_rho_drho B r phi z = Out e (1, vzero)).
Proof.
  intros B r phi z psi g K N H. destruct (rho_of_psi B r phi z psi g K H) as (e & E & ->). unfold norm_psi, rho_slope, norm_psi. set (u := (psi - fst (psi_limits B)) / (snd (psi_limits B) - fst (psi_limits B))).
  split; [|split].
  - intro U. rewrite to_rho_pos; auto. destruct B; try apply negative_no; try apply nonpositive_no; fold u; lra.
  - intros U S. rewrite to_rho_zero; auto. destruct B; try (exfalso; now apply S); apply negative_no; fold u; lra.
  - intros U. exists e. split; [exact E|]. rewrite to_rho_bad; auto. fold u. destruct B; try (apply negative_spec; destruct U as [U|[_ []]]; exact U). apply nonpositive_spec. lra.
Qed.
Lemma rho_fails : forall B r phi z e psi g, e <> 0%Z -> B_field_eval_psi_dpsi B r phi z = Out e (psi, g) -> exists e', e' <> 0%Z /\ B_field_eval_rho_drho B r phi z = Out e' (1, vzero).
Proof.
  intros B r phi z e psi g N H. destruct B as [s|b|b|b|b|]; unfold B_field_eval_psi_dpsi, B_field_eval_rho_drho in *; try (cbn [wrapup] in H; injection H as <- _ _; contradiction).
  - unfold B_2DS_eval_psi_dpsi, B_2DS_eval_rho_drho in *. destruct (interp2Dcomp_eval_df (b2psi b) r z) as [| |[[[[[a1 a2] a3] a4] a5] a6]]; cbn [one wrapup] in *; try discriminate; [|injection H as <- _ _; contradiction]. eexists. split; [|reflexivity]. nzerr.
  - unfold B_3DS_eval_psi_dpsi, B_3DS_eval_rho_drho in *. destruct (interp2Dcomp_eval_df (b3psi b) r z) as [| |[[[[[a1 a2] a3] a4] a5] a6]]; cbn [one wrapup] in *; try discriminate; [|injection H as <- _ _; contradiction]. eexists. split; [|reflexivity]. nzerr.
  - unfold B_STS_eval_rho_drho, B_STS_eval_psi_dpsi in *. destruct (interp3Dcomp_eval_df (bspsi b) r phi z) as [| |[[[[[[[[[a1 a2] a3] a4] a5] a6] a7] a8] a9] a10]]; cbn [one wrapup] in *; try discriminate; [|injection H as <- _ _; contradiction]. eexists. split; [|reflexivity]. nzerr.
  - eexists. split; [|reflexivity]. nzerr.
Qed.
(** the radial coordinate of a flux value *)
Lemma eval_rho_main : forall B psi, fst (psi_limits B) <> snd (psi_limits B) ->
  (B <> BF_unknown -> 0 < norm_psi B psi -> B_field_eval_rho B psi = Out 0 (sqrt (norm_psi B psi), rho_slope B psi) /\ Dx (fun t => sqrt (norm_psi B t)) psi (rho_slope B psi)) /\
  (B <> BF_unknown -> norm_psi B psi = 0 -> B_field_eval_rho B psi = ODiv0) /\
  (B = BF_unknown \/ norm_psi B psi < 0 -> exists e, e <> 0%Z /\ B_field_eval_rho B psi = Out e (1, 0)).
Proof.
  intros B psi N. unfold B_field_eval_rho, rho_slope, norm_psi. destruct (psi_limits B) as [p0 p1] eqn:L. cbn [fst snd] in *. set (u := (psi - p0) / (p1 - p0)).
  split; [|split].
  - intros K U. pose proof (sqrt_lt_R0 u U). split.
    + rewrite divide_nz by lra. rewrite negative_no by lra. replace (match B with BF_unknown => error_raise ERR_UNKNOWN_INPUT 261 EF_B_FIELD | _ => 0%Z end) with 0%Z by (destruct B; try reflexivity; now contradiction K). cbn [Z.eqb]. rewrite divide_nz by lra. reflexivity.
    + eapply d_eq; [apply (d_sqrt (fun t => (t - p0) / (p1 - p0)) psi (1 / (p1 - p0)))|].
      * eapply d_eq; [apply d_div; [apply d_minus; [apply d_id|apply d_const]|apply d_const|]|]; cbv beta; [lra|field; lra].
      * fold u. exact U.
      * fold u. field. lra.
  - intros K U. rewrite divide_nz by lra. rewrite negative_no by lra. replace (match B with BF_unknown => error_raise ERR_UNKNOWN_INPUT 261 EF_B_FIELD | _ => 0%Z end) with 0%Z by (destruct B; try reflexivity; now contradiction K). cbn [Z.eqb]. rewrite divide_z; [reflexivity|]. rewrite U. apply sqrt_0.
  - intros K. rewrite divide_nz by lra. destruct (negative u) eqn:NU.
    + eexists. split; [|reflexivity]. nzerr.
    + destruct K as [->|K]; [|apply negative_spec in K; fold u in K; congruence].
      destruct (Z.eqb_spec (error_raise ERR_UNKNOWN_INPUT 261 EF_B_FIELD) 0) as [Q|Q]; [zerr|]. eexists. split; [exact Q|reflexivity].
Qed.
(** the reported gradient of the radial coordinate is its gradient whenever the reported
    gradient of the flux is the gradient of the flux *)
Lemma rho_gradient : forall B (line : R -> R * R * R) t0 (psi : R -> R) g rho d (c : vec -> R), spline_or_gs B -> fst (psi_limits B) <> snd (psi_limits B) ->
  In c (vx :: vy :: vz :: nil) ->
  near t0 (fun t => let '(r, phi, z) := line t in B_field_eval_psi_dpsi B r phi z = Out 0 (psi t, g t) /\ B_field_eval_rho_drho B r phi z = Out 0 (rho t, d t)) ->
  Dx psi t0 (c (g t0)) -> Dx rho t0 (c (d t0)).
Proof.
  intros B line t0 psi g rho d c K N IC (a & b & AB & H) D.
  assert (V : forall t, a < t < b -> 0 < norm_psi B (psi t) /\ rho t = sqrt (norm_psi B (psi t)) /\ d t = vscal (rho_slope B (psi t)) (g t)).
  { intros t T. specialize (H t T). destruct (line t) as [[r phi] z]. destruct H as [H1 H2]. destruct (rho_main B r phi z _ _ K N H1) as (M1 & M2 & M3).
    destruct (Rtotal_order (norm_psi B (psi t)) 0) as [U|[U|U]].
    - destruct (M3 (or_introl U)) as (e & E & X). rewrite H2 in X. injection X as <- _ _. now contradiction E.
    - assert (S : {stellarator B} + {~ stellarator B}) by (destruct B; (left; exact I) || (right; intros [])).
      destruct S as [S|S]; [destruct (M3 (or_intror (conj U S))) as (e & E & X); rewrite H2 in X; injection X as <- _ _; now contradiction E|]. specialize (M2 U S). congruence.
    - specialize (M1 U). rewrite H2 in M1. injection M1 as -> ->. auto. }
  destruct (V t0 AB) as (U0 & _ & D0). rewrite D0.
  apply (d_near (fun t => sqrt (norm_psi B (psi t)))); [exists a, b; split; [exact AB|]; intros t T; symmetry; apply (V t T)|].
  assert (B <> BF_unknown) as K' by (intros ->; exact K).
  destruct (proj1 (eval_rho_main B (psi t0) N) K' U0) as [_ Q].
  eapply d_eq; [exact (d_comp psi (fun p => sqrt (norm_psi B p)) t0 _ _ D Q)|]. destruct IC as [<-|[<-|[<-|[]]]]; reflexivity.
Qed.

(** ** Defaults *)
Lemma wrapup_default : forall A (def : A) x e v, wrapup def x = Out e v -> e <> 0%Z -> v = def.
Proof. intros A def x e v H N. destruct x; cbn in H; try discriminate; injection H as <- <-; [contradiction|reflexivity]. Qed.
Definition is_default {A} (def : A) (x : out A) : Prop := exists e, e <> 0%Z /\ x = Out e def.
Definition dB_default : nat -> R := fun k => match k with 0%nat => 1 | _ => 0 end.
Lemma defaults : forall B r phi z psi e,
  e <> 0%Z ->
  (forall v, B_field_eval_psi B r phi z = Out e v -> v = 1) /\ (forall v, B_field_eval_psi_dpsi B r phi z = Out e v -> v = (1, vzero)) /\
  (forall v, B_field_eval_rho B psi = Out e v -> v = (1, 0)) /\ (forall v, B_field_eval_rho_drho B r phi z = Out e v -> v = (1, vzero)) /\
  (forall v, B_field_eval_B B r phi z = Out e v -> v = V 1 0 0) /\ (forall v, B_field_eval_B_dB B r phi z = Out e v -> v = dB_default) /\
  (forall v, B_field_get_axis_rz B phi = Out e v -> v = (1, 0)).
Proof.
  intros B r phi z psi e E. repeat split; intros v H; try (eapply wrapup_default; [exact H|exact E]).
  unfold B_field_eval_rho in H. destruct (psi_limits B). eapply wrapup_default; [exact H|exact E].
Qed.
Lemma unknown_type : forall r phi z psi,
  is_default 1 (B_field_eval_psi BF_unknown r phi z) /\ is_default (1, vzero) (B_field_eval_psi_dpsi BF_unknown r phi z) /\ is_default (1, 0) (B_field_eval_rho BF_unknown psi) /\
  is_default (1, vzero) (B_field_eval_rho_drho BF_unknown r phi z) /\ is_default (V 1 0 0) (B_field_eval_B BF_unknown r phi z) /\ is_default dB_default (B_field_eval_B_dB BF_unknown r phi z) /\
  is_default (1, 0) (B_field_get_axis_rz BF_unknown phi).
Proof.
  intros r phi z psi. repeat split; try (eexists; split; [|reflexivity]; nzerr).
  apply (proj2 (proj2 (eval_rho_main BF_unknown psi ltac:(cbn; lra)))). now left.
Qed.

(** ** Cartesian field *)
(** value at the origin plus Jacobian times position *)
Definition affine (b : btc) (x y z : R) : vec :=
  V (vx (tcB b) + (tcd b 0%nat * x + tcd b 1%nat * y + tcd b 2%nat * z))
    (vy (tcB b) + (tcd b 3%nat * x + tcd b 4%nat * y + tcd b 5%nat * z))
    (vz (tcB b) + (tcd b 6%nat * x + tcd b 7%nat * y + tcd b 8%nat * z)).
(** Cartesian components of a vector given by cylindrical ones *)
Definition cart (phi : R) (v : vec) : vec := V (vx v * cos phi - vy v * sin phi) (vx v * sin phi + vy v * cos phi) (vz v).
Definition cyl (phi : R) (v : vec) : vec := V (vx v * cos phi + vy v * sin phi) (- vx v * sin phi + vy v * cos phi) (vz v).
Lemma sc1 : forall p, sin p * sin p + cos p * cos p = 1.
Proof. intro p. pose proof (sin2_cos2 p) as H. unfold Rsqr in H. exact H. Qed.
Lemma cart_cyl : forall p v, cart p (cyl p v) = v.
Proof. intros p [a b c]. pose proof (sc1 p). unfold cart, cyl. cbn [vx vy vz]. f_equal; [transitivity (a * (sin p * sin p + cos p * cos p)); [ring|rewrite H; ring]|transitivity (b * (sin p * sin p + cos p * cos p)); [ring|rewrite H; ring]]. Qed.
Lemma cyl_inj : forall p v w, cyl p v = cyl p w -> v = w.
Proof. intros p v w H. rewrite <- (cart_cyl p v), <- (cart_cyl p w). now rewrite H. Qed.
Lemma tc_xyz_affine : forall b r phi z, tc_xyz b r phi z = affine b (r * cos phi) (r * sin phi) z.
Proof. intros b r phi z. unfold tc_xyz, affine, pos_rpz2xyz. f_equal; ring. Qed.
Lemma tc_eval : forall b r phi z, B_TC_eval_B b r phi z = cyl phi (affine b (r * cos phi) (r * sin phi) z).
Proof. intros b r phi z. unfold B_TC_eval_B. rewrite tc_xyz_affine. set (w := affine b _ _ z). clearbody w. destruct w as [a c e]. unfold tuple, untuple, vec_xyz2rpz, cyl. cbn [vx vy vz]. f_equal; ring. Qed.
Lemma tc_B : forall b r phi z, exists v, B_field_eval_B (BF_TC b) r phi z = Out 0 v /\ cart phi v = affine b (r * cos phi) (r * sin phi) z.
Proof. intros b r phi z. eexists. split; [reflexivity|]. rewrite tc_eval. apply cart_cyl. Qed.
(** the reported derivatives *)
Definition tc_field (b : btc) r phi z := B_TC_eval_B b r phi z.
Lemma tc_dB : forall b r phi z, r <> 0 -> exists D, B_field_eval_B_dB (BF_TC b) r phi z = Out 0 D /\
  cart phi (V (D 0%nat) (D 4%nat) (D 8%nat)) = tcB b /\
  (forall k c, In (k, c) ((0%nat, vx) :: (4%nat, vy) :: (8%nat, vz) :: nil) ->
     Dx (fun t => c (tc_field b t phi z)) r (D (k + 1)%nat) /\ Dx (fun t => c (tc_field b r phi t)) z (D (k + 3)%nat)) /\
  divergence D r = tcd b 0%nat + tcd b 4%nat + tcd b 8%nat /\
  (jac_of (tc_field b) r phi z D <-> affine b (r * cos phi) (r * sin phi) z = tcB b).
Proof.
  intros b r phi z R0. eexists. split; [reflexivity|].
  assert (F : forall r phi z, tc_field b r phi z = cyl phi (affine b (r * cos phi) (r * sin phi) z)) by apply tc_eval.
  split; [|split; [|split]].
  - unfold cart, B_TC_eval_B_dB, jac_xyz2rpz. cbn [vx vy vz]. pose proof (sc1 phi). destruct (tcB b) as [a c e]. cbn [vx vy vz]. f_equal; [transitivity (a * (sin phi * sin phi + cos phi * cos phi)); [ring|rewrite H; ring]|transitivity (c * (sin phi * sin phi + cos phi * cos phi)); [ring|rewrite H; ring]].
  - intros k c [K|[K|[K|[]]]]; injection K as <- <-; cbn [Nat.add].
    all: split; [eapply d_ext; [intro t; rewrite (F t phi z); reflexivity|]|eapply d_ext; [intro t; rewrite (F r phi t); reflexivity|]];
      unfold cyl, affine, B_TC_eval_B_dB, jac_xyz2rpz; cbn [vx vy vz]; der; try ring.
  - pose proof (sc1 phi) as S. unfold divergence, B_TC_eval_B_dB, jac_xyz2rpz. cbn [vx vy vz].
    transitivity ((tcd b 0%nat + tcd b 4%nat) * (sin phi * sin phi + cos phi * cos phi) + tcd b 8%nat); [field; exact R0|rewrite S; ring].
  - assert (D0 : V (B_TC_eval_B_dB b r phi z 0%nat) (B_TC_eval_B_dB b r phi z 4%nat) (B_TC_eval_B_dB b r phi z 8%nat) = cyl phi (tcB b)) by (unfold B_TC_eval_B_dB, jac_xyz2rpz, cyl; cbn [vx vy vz]; f_equal; ring).
    split.
    + intros [E _]. rewrite D0, F in E. apply cyl_inj in E. now symmetry.
    + intros E. split; [rewrite D0, F, E; reflexivity|].
      unfold affine in E. destruct (tcB b) as [a c e] eqn:TB. cbn [vx vy vz] in E. injection E as E1 E2 E3.
      intros k q [K|[K|[K|[]]]]; injection K as <- <-; cbn [Nat.add].
      all: split; [eapply d_ext; [intro t; rewrite (F t phi z); reflexivity|]|split; [eapply d_ext; [intro t; rewrite (F r t z); reflexivity|]|eapply d_ext; [intro t; rewrite (F r phi t); reflexivity|]]];
      unfold cyl, affine, B_TC_eval_B_dB, jac_xyz2rpz; rewrite ?TB; cbn [vx vy vz]; der; rewrite ?E1, ?E2, ?E3; ring.
Qed.

Lemma tc_E : forall e B r phi z, exists v, E_field_eval_E (EF_TC e) B r phi z = FVal v /\ cart phi v = e.
Proof. intros e B r phi z. eexists. split; [reflexivity|]. destruct e as [a b c]. pose proof (sc1 phi) as H. unfold tuple, untuple, vec_xyz2rpz, cart. cbn [vx vy vz].
  f_equal; [transitivity (a * (sin phi * sin phi + cos phi * cos phi)); [ring|rewrite H; ring]|transitivity (b * (sin phi * sin phi + cos phi * cos phi)); [ring|rewrite H; ring]].
Qed.

(** ** Radial electric field *)
Lemma e1_main : forall junk nrho rhomin rhomax reff dvdrho dV, (2 <= nrho)%nat -> rhomin < rhomax -> E_1DS_init junk nrho rhomin rhomax reff dvdrho = Val dV ->
  (forall reff', E_1DS_init junk nrho rhomin rhomax reff' dvdrho = Val dV) /\
  exists F F1 F2, spline_interpolant nrho NATURALBC rhomin rhomax dvdrho F F1 F2 /\
  forall B r phi z, r <> 0 ->
  (forall rho d, B_field_eval_rho_drho B r phi z = Out 0 (rho, d) ->
     (rhomin <= rho <= rhomax -> exists E, E_field_eval_E (EF_1DS dV) B r phi z = FVal E /\ E = vscal (- F rho) (V (vx d) (vy d / r) (vz d))) /\
     (~ (rhomin <= rho <= rhomax) -> E_field_eval_E (EF_1DS dV) B r phi z = FVal vzero)) /\
  (forall e v, e <> 0%Z -> B_field_eval_rho_drho B r phi z = Out e v -> exists e', e' <> 0%Z /\ E_field_eval_E (EF_1DS dV) B r phi z = FErr e').
Proof.
  intros junk nrho rhomin rhomax reff dvdrho dV N M H. split; [intro; exact H|]. unfold E_1DS_init in H. cbv zeta in H.
  assert (AX : amin (i1x dV) = rhomin /\ amax (i1x dV) = rhomax).
  { unfold interp1Dcomp_setup in H. destruct (valid_bc NATURALBC); [|discriminate]. destruct (splinecomp junk dvdrho nrho NATURALBC) as [| |q]; try discriminate. injection H as <-. now split. }
  destruct AX as [A1 A2].
  destruct (interp1Dcomp_is_spline junk dvdrho nrho NATURALBC rhomin rhomax dV (nat_enough _ N) M H) as (F & F1 & F2 & SP & VF & _).
  exists F, F1, F2. split; [exact SP|]. intros B r phi z R0. split.
  - intros rho d E. unfold E_field_eval_E, E_1DS_eval_E. rewrite E. cbn [Z.eqb negb]. rewrite divide_nz by exact R0. rewrite A1, A2. split.
    + intro I. destruct (Rlt_dec rho rhomin); [lra|]. destruct (Rlt_dec rhomax rho); [lra|]. destruct (VF rho (fun _ => I)) as [-> _]. cbn [one]. eexists. split; [reflexivity|]. reflexivity.
    + intro I. destruct (Rlt_dec rho rhomin); [reflexivity|]. destruct (Rlt_dec rhomax rho); [reflexivity|]. exfalso. lra.
  - intros e v E0 E. unfold E_field_eval_E, E_1DS_eval_E. rewrite E. destruct v as [rho d]. destruct (Z.eqb_spec e 0) as [Z0|Z0]; [contradiction|]. cbn [negb]. eexists. split; [|reflexivity]. nzerr.
Qed.
(** it is minus the gradient of a potential with the given slope *)
Lemma e1_potential : forall junk nrho rhomin rhomax reff dvdrho dV, (2 <= nrho)%nat -> rhomin < rhomax -> E_1DS_init junk nrho rhomin rhomax reff dvdrho = Val dV ->
  forall B (rho : R -> R -> R -> R) d pot r phi z, r <> 0 -> B_field_eval_rho_drho B r phi z = Out 0 (rho r phi z, d) -> rhomin < rho r phi z < rhomax ->
  Dx (fun t => rho t phi z) r (vx d) -> Dx (fun t => rho r t z) phi (vy d) -> Dx (rho r phi) z (vz d) ->
  (forall F F1 F2, spline_interpolant nrho NATURALBC rhomin rhomax dvdrho F F1 F2 -> Dx pot (rho r phi z) (F (rho r phi z))) ->
  exists E, E_field_eval_E (EF_1DS dV) B r phi z = FVal E /\
    Dx (fun t => pot (rho t phi z)) r (- vx E) /\ Dx (fun t => pot (rho r t z)) phi (- (r * vy E)) /\ Dx (fun t => pot (rho r phi t)) z (- vz E).
Proof.
  intros junk nrho rhomin rhomax reff dvdrho dV N M H B rho d pot r phi z R0 E I D1 D2 D3 P.
  destruct (e1_main junk nrho rhomin rhomax reff dvdrho dV N M H) as (_ & F & F1 & F2 & SP & X). destruct (X B r phi z R0) as (Y & _). destruct (Y _ _ E) as (W & _). destruct W as (v & W & VE); [lra|].
  specialize (P F F1 F2 SP). exists v. split; [exact W|]. subst v. unfold vscal. cbn [vx vy vz]. split; [|split].
  - eapply d_eq; [exact (d_comp _ pot r _ _ D1 P)|ring].
  - eapply d_eq; [exact (d_comp (fun t => rho r t z) pot phi _ _ D2 P)|field; exact R0].
  - eapply d_eq; [exact (d_comp _ pot z _ _ D3 P)|ring].
Qed.
Lemma e_unknown : forall B r phi z, exists e, e <> 0%Z /\ E_field_eval_E EF_unknown B r phi z = FErr e.
Proof. intros. eexists. split; [|reflexivity]. nzerr. Qed.
