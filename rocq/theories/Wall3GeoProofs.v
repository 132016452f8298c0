(** The box test misses no triangle that meets the box, provided the triangle
    is not almost parallel to a face or an edge of the box. *)
From Coq Require Import Reals List Arith ZArith Lia Lra Psatz Bool.
From Verif Require Import Vec MathModel MathProofs Wall3Model Wall3Proofs.
Import ListNotations.
Local Open Scope R_scope.

(** ** Leaving a polygon along a direction *)
Lemma exit_ray : forall A (a b : A -> R) (l : list A),
  (forall x, In x l -> 0 <= a x) -> (exists x, In x l /\ b x < 0) ->
  exists s, 0 <= s /\ (forall x, In x l -> 0 <= a x + s * b x) /\
            exists x, In x l /\ b x < 0 /\ a x + s * b x = 0.
Proof.
  intros A a b l. induction l as [|y l IH]; intros P D; [destruct D as (x & [] & _)|].
  assert (Py : 0 <= a y) by (apply P; now left).
  assert (Pl : forall x, In x l -> 0 <= a x) by (intros; apply P; now right).
  destruct (Rlt_dec (b y) 0) as [By|By].
  - (* candidate exit through y *)
    set (sy := a y / - b y).
    assert (S0 : 0 <= sy) by (apply Rle_mult_inv_pos; lra).
    assert (Sy : a y + sy * b y = 0) by (unfold sy; field; lra).
    destruct (Forall_Exists_dec (fun x => 0 <= b x) (fun x => Rle_dec 0 (b x)) l) as [F|E].
    + exists sy. split; auto. rewrite Forall_forall in F. split.
      * intros x [<-|I]; [lra|]. specialize (F x I). specialize (Pl x I). nra.
      * exists y. split; [now left|auto].
    + apply Exists_exists in E. destruct E as (x & I & Bx).
      destruct IH as (s & Hs & All & z & Iz & Bz & Ez); auto. { exists x. split; auto. lra. }
      destruct (Rle_dec s sy) as [L|L].
      * exists s. split; auto. split; [|exists z; split; [now right|auto]].
        intros w [<-|Iw]; auto. nra.
      * exists sy. split; auto. split; [|exists y; split; [now left|auto]].
        intros w [<-|Iw]; [lra|]. specialize (All w Iw). specialize (Pl w Iw).
        destruct (Rle_dec 0 (b w)); nra.
  - destruct IH as (s & Hs & All & z & Iz & Bz & Ez); auto.
    { destruct D as (x & [<-|I] & Bx); [lra|eauto]. }
    exists s. split; auto. split; [|exists z; split; [now right|auto]].
    intros w [<-|Iw]; auto. nra.
Qed.

(** ** Constraints of the triangle and of the box *)
Inductive axis := AX | AY | AZ.
Definition co (k : axis) (x : vec) : R := match k with AX => vx x | AY => vy x | AZ => vz x end.
Inductive tag := TU | TV | TW | BLo (k : axis) | BHi (k : axis).
Definition tags := [TU; TV; TW; BLo AX; BLo AY; BLo AZ; BHi AX; BHi AY; BHi AZ].
Lemma all_tags : forall t, In t tags.
Proof. destruct t as [| | |[]|[]]; cbn; tauto. Qed.
Section G.
Variables (t1 t2 t3 b1 b2 : vec).
Let e12 := vsub t2 t1.
Let e13 := vsub t3 t1.
Definition pt (u v : R) : vec := vadd t1 (vadd (vscal u (vsub t2 t1)) (vscal v (vsub t3 t1))).
Definition val (t : tag) (u v : R) : R :=
  match t with
  | TU => u | TV => v | TW => 1 - u - v
  | BLo k => co k (pt u v) - co k b1
  | BHi k => co k b2 - co k (pt u v)
  end.
Definition slp (t : tag) (du dv : R) : R :=
  match t with
  | TU => du | TV => dv | TW => - du - dv
  | BLo k => co k e12 * du + co k e13 * dv
  | BHi k => - (co k e12 * du + co k e13 * dv)
  end.
Lemma val_move : forall t u v s du dv, val t (u + s * du) (v + s * dv) = val t u v + s * slp t du dv.
Proof.
  intros [| | |[]|[]] u v s du dv; unfold val, slp, pt, e12, e13; cbn [co]; vunf; ring.
Qed.
Definition inP (u v : R) := forall t, 0 <= val t u v.
Lemma move : forall u v du dv, inP u v -> (exists t, slp t du dv < 0) ->
  exists s t, 0 <= s /\ inP (u + s * du) (v + s * dv) /\ slp t du dv < 0 /\ val t (u + s * du) (v + s * dv) = 0.
Proof.
  intros u v du dv P [t0 D].
  destruct (exit_ray tag (fun t => val t u v) (fun t => slp t du dv) tags) as (s & Hs & All & z & Iz & Bz & Ez).
  - intros x _. apply P.
  - exists t0. split; auto. apply all_tags.
  - exists s, z. split; auto. split; [|split; auto; now rewrite val_move].
    intros t. rewrite val_move. apply All. apply all_tags.
Qed.
Definition is_edge (t : tag) := t = TU \/ t = TV \/ t = TW.
Definition is_face (t : tag) (k : axis) := t = BLo k \/ t = BHi k.
Hypothesis Nx : vx (tri_normal t1 t2 t3) <> 0.
Hypothesis Ny : vy (tri_normal t1 t2 t3) <> 0.
(** an extreme point: a vertex, an edge meeting a face, or a box edge meeting
    the triangle *)
Lemma extreme : forall u v, inP u v -> exists u v, inP u v /\
  ((exists s t, is_edge s /\ is_edge t /\ s <> t /\ val s u v = 0 /\ val t u v = 0) \/
   (exists s t k, is_edge s /\ is_face t k /\ val s u v = 0 /\ val t u v = 0) \/
   (exists s t k l, is_face s k /\ is_face t l /\ k <> l /\ val s u v = 0 /\ val t u v = 0)).
Proof.
  intros u0 v0 P0.
  (* to the boundary *)
  destruct (move u0 v0 1 0 P0) as (s0 & c1 & _ & P1 & _ & C1). { exists TW. cbn. lra. }
  set (u := u0 + s0 * 1) in *. set (v := v0 + s0 * 0) in *. clearbody u v. clear u0 v0 s0 P0.
  assert (FC : forall k, is_face c1 k -> exists u v, inP u v /\
    ((exists s t, is_edge s /\ is_edge t /\ s <> t /\ val s u v = 0 /\ val t u v = 0) \/
     (exists s t k, is_edge s /\ is_face t k /\ val s u v = 0 /\ val t u v = 0) \/
     (exists s t k l, is_face s k /\ is_face t l /\ k <> l /\ val s u v = 0 /\ val t u v = 0))).
  { intros k Fk.
    assert (NZ : co k e13 <> 0 \/ co k e12 <> 0).
    { destruct (Req_dec (co k e13) 0) as [A|]; auto. destruct (Req_dec (co k e12) 0) as [B|]; auto. exfalso.
      unfold tri_normal in Nx, Ny. fold e12 e13 in Nx, Ny. unfold cross in Nx, Ny. cbn [vx vy vz] in Nx, Ny.
      destruct k; cbn [co] in A, B.
      - apply Ny. rewrite A, B. ring.
      - apply Nx. rewrite A, B. ring.
      - apply Nx. rewrite A, B. ring. }
    destruct (move u v (co k e13) (- co k e12) P1) as (s & c2 & Hs & P2 & D2 & C2).
    { destruct (Rlt_dec (co k e13) 0); [exists TU; cbn; lra|]. destruct (Rlt_dec 0 (co k e12)); [exists TV; cbn; lra|].
      exists TW. cbn [slp]. lra. }
    exists (u + s * co k e13), (v + s * - co k e12). split; auto.
    assert (C1' : val c1 (u + s * co k e13) (v + s * - co k e12) = 0).
    { rewrite val_move, C1. destruct Fk as [->| ->]; cbn [slp]; ring. }
    destruct c2 as [| | |l|l].
    - right. left. exists TU, c1, k. unfold is_edge. auto.
    - right. left. exists TV, c1, k. unfold is_edge. auto.
    - right. left. exists TW, c1, k. unfold is_edge. auto.
    - right. right. exists c1, (BLo l), k, l. split; auto. split; [now left|]. split; auto.
      intros <-. cbn [slp] in D2. lra.
    - right. right. exists c1, (BHi l), k, l. split; auto. split; [now right|]. split; auto.
      intros <-. cbn [slp] in D2. lra. }
  assert (EC : forall du dv d, is_edge c1 -> slp c1 du dv = 0 -> slp d du dv < 0 -> exists u v, inP u v /\
    ((exists s t, is_edge s /\ is_edge t /\ s <> t /\ val s u v = 0 /\ val t u v = 0) \/
     (exists s t k, is_edge s /\ is_face t k /\ val s u v = 0 /\ val t u v = 0) \/
     (exists s t k l, is_face s k /\ is_face t l /\ k <> l /\ val s u v = 0 /\ val t u v = 0))).
  { intros du dv d E S0 D. destruct (move u v du dv P1) as (s & c2 & Hs & P2 & D2 & C2); [eauto|].
    exists (u + s * du), (v + s * dv). split; auto.
    assert (C1' : val c1 (u + s * du) (v + s * dv) = 0) by (rewrite val_move, C1, S0; ring).
    destruct c2 as [| | |l|l].
    - left. exists c1, TU. repeat split; auto; [left; auto|]. intros ->. lra.
    - left. exists c1, TV. repeat split; auto; [right; left; auto|]. intros ->. lra.
    - left. exists c1, TW. repeat split; auto; [right; right; auto|]. intros ->. lra.
    - right. left. exists c1, (BLo l), l. repeat split; auto. now left.
    - right. left. exists c1, (BHi l), l. repeat split; auto. now right. }
  destruct c1 as [| | |k|k].
  - apply (EC 0 1 TW); cbn; unfold is_edge; auto; lra.
  - apply (EC 1 0 TW); cbn; unfold is_edge; auto; lra.
  - apply (EC 1 (-1) TV); cbn; unfold is_edge; auto; lra.
  - apply (FC k). now left.
  - apply (FC k). now right.
Qed.
End G.

(** ** Detecting the three kinds of extreme points *)
Lemma ge0_true : forall x, 0 <= x -> ge0 x = true.
Proof. intros. unfold ge0. destruct (Rle_dec _ _); auto; lra. Qed.
Lemma hits_ge0 : forall q1 q2 t1 t2 t3 s, EPS < area2 t1 t2 t3 -> EPS <= slant q1 q2 t1 t2 t3 ->
  hits_at q1 q2 t1 t2 t3 s -> ge0 (tri_collision q1 q2 t1 t2 t3) = true.
Proof. intros. apply ge0_true. apply (tri_exact q1 q2 t1 t2 t3 s) in H1; auto. tauto. Qed.
(** rectangle c0, c0+A, c0+A+B, c0+B *)
Lemma rect_hit : forall q1 q2 c0 A B s al be,
  let t1 := c0 in let t2 := vadd c0 A in let t3 := vadd c0 (vadd A B) in let t4 := vadd c0 B in
  0 <= s <= 1 -> 0 <= al <= 1 -> 0 <= be <= 1 ->
  at_frac q1 q2 s = vadd c0 (vadd (vscal al A) (vscal be B)) ->
  EPS < norm (cross A B) -> EPS <= Rabs (dot (vsub q2 q1) (cross A B)) / norm (vsub q2 q1) ->
  quad_collision q1 q2 t1 t2 t3 t4 = true.
Proof.
  intros q1 q2 c0 A B s al be t1 t2 t3 t4 Hs Ha Hb E N S. unfold quad_collision. apply orb_true_iff.
  assert (N1 : cross (vsub t2 t1) (vsub t3 t1) = cross A B) by (unfold t1, t2, t3; clear; vring).
  assert (N2 : cross (vsub t3 t1) (vsub t4 t1) = cross A B) by (unfold t1, t4, t3; clear; vring).
  destruct (Rle_dec be al).
  - left. apply hits_ge0 with (s := s).
    + unfold area2. now rewrite N1.
    + unfold slant. now rewrite N1.
    + split; auto. rewrite E. apply in_tri_uv. exists (al - be), be. repeat split; try lra. unfold t1, t2, t3. clear. vring.
  - right. apply hits_ge0 with (s := s).
    + unfold area2. now rewrite N2.
    + unfold slant. now rewrite N2.
    + split; auto. rewrite E. apply in_tri_uv. exists al, (be - al). repeat split; try lra. unfold t1, t4, t3. clear. vring.
Qed.

Definition in_box (b1 b2 x : vec) := forall k, co k b1 <= co k x <= co k b2.
Definition on_face (b1 b2 x : vec) := exists k, co k x = co k b1 \/ co k x = co k b2.
(** smallest face area of the box *)
Definition faces_at_least (s : R) (b1 b2 : vec) :=
  vx b1 < vx b2 /\ vy b1 < vy b2 /\ vz b1 < vz b2 /\
  s <= (vx b2 - vx b1) * (vy b2 - vy b1) /\ s <= (vy b2 - vy b1) * (vz b2 - vz b1) /\ s <= (vx b2 - vx b1) * (vz b2 - vz b1).
(** a segment that is not almost parallel to any face of area s *)
Definition steep (s : R) (p q : vec) :=
  p <> q /\ forall k, EPS * norm (vsub q p) <= Rabs (co k (vsub q p)) * s.

Lemma norm_axis : forall a, norm (V a 0 0) = Rabs a /\ norm (V 0 a 0) = Rabs a /\ norm (V 0 0 a) = Rabs a.
Proof.
  intros a. unfold norm. cbn [vx vy vz]. repeat split; rewrite <- sqrt_Rsqr_abs; f_equal; unfold Rsqr; ring.
Qed.
Definition quads (q1 q2 b1 b2 : vec) : bool :=
  let c000 := V (vx b1) (vy b1) (vz b1) in
  let c100 := V (vx b2) (vy b1) (vz b1) in
  let c010 := V (vx b1) (vy b2) (vz b1) in
  let c110 := V (vx b2) (vy b2) (vz b1) in
  let c001 := V (vx b1) (vy b1) (vz b2) in
  let c101 := V (vx b2) (vy b1) (vz b2) in
  let c011 := V (vx b1) (vy b2) (vz b2) in
  let c111 := V (vx b2) (vy b2) (vz b2) in
       quad_collision q1 q2 c000 c100 c110 c010 || quad_collision q1 q2 c000 c010 c011 c001
    || quad_collision q1 q2 c000 c100 c101 c001 || quad_collision q1 q2 c010 c110 c111 c011
    || quad_collision q1 q2 c100 c101 c111 c110 || quad_collision q1 q2 c001 c101 c111 c011.
Lemma frac01 : forall a b x, a < b -> a <= x <= b -> 0 <= (x - a) / (b - a) <= 1 /\ x = a + (x - a) / (b - a) * (b - a).
Proof.
  intros a b x L H. split; [|field; lra]. split; [apply Rle_mult_inv_pos; lra|].
  apply Rmult_le_reg_r with (b - a); [lra|]. unfold Rdiv. rewrite Rmult_assoc, Rinv_l by lra. lra.
Qed.
Lemma steep_slant : forall s p q n k, 0 < s -> steep s p q -> s <= n ->
  EPS <= Rabs (co k (vsub q p)) * n / norm (vsub q p).
Proof.
  intros s p q n k S0 [NE St] L.
  assert (0 < norm (vsub q p)).
  { apply norm_pos. intros K. apply NE. destruct p, q. unfold vsub, vzero in K. cbn in K. injection K as A B C. f_equal; lra. }
  apply Rmult_le_reg_r with (norm (vsub q p)); auto.
  unfold Rdiv. rewrite Rmult_assoc, Rinv_l, Rmult_1_r by lra.
  eapply Rle_trans; [apply (St k)|]. apply Rmult_le_compat_l; auto. apply Rabs_pos.
Qed.
Lemma edge_face : forall S0 p q b1 b2 s, EPS < S0 -> faces_at_least S0 b1 b2 -> steep S0 p q -> 0 <= s <= 1 ->
  in_box b1 b2 (at_frac p q s) -> on_face b1 b2 (at_frac p q s) -> quads p q b1 b2 = true.
Proof.
  intros S0 p q b1 b2 s SE (Lx & Ly & Lz & Axy & Ayz & Axz) St Hs IB (k & F).
  pose proof EPS_pos as EP.
  pose proof (IB AX) as Bx. pose proof (IB AY) as By'. pose proof (IB AZ) as Bz. cbn [co] in Bx, By', Bz.
  destruct (frac01 _ _ _ Lx Bx) as [Fx Ex]. destruct (frac01 _ _ _ Ly By') as [Fy Ey]. destruct (frac01 _ _ _ Lz Bz) as [Fz Ez].
  set (x := at_frac p q s) in *.
  set (fx := (vx x - vx b1) / (vx b2 - vx b1)) in *. set (fy := (vy x - vy b1) / (vy b2 - vy b1)) in *.
  set (fz := (vz x - vz b1) / (vz b2 - vz b1)) in *. clearbody fx fy fz.
  set (dx := vx b2 - vx b1) in *. set (dy := vy b2 - vy b1) in *. set (dz := vz b2 - vz b1) in *.
  assert (Dx : 0 < dx) by (unfold dx; lra). assert (Dy : 0 < dy) by (unfold dy; lra). assert (Dz : 0 < dz) by (unfold dz; lra).
  assert (X : x = V (vx x) (vy x) (vz x)) by (destruct x; auto).
  assert (Nxy : 0 < dx * dy) by nra. assert (Nyz : 0 < dy * dz) by nra. assert (Nxz : 0 < dx * dz) by nra.
  unfold quads. cbv zeta.
  assert (Q : forall c0 A B t1' t2' t3' t4' al be ka n, t1' = c0 -> t2' = vadd c0 A -> t3' = vadd c0 (vadd A B) -> t4' = vadd c0 B ->
     0 <= al <= 1 -> 0 <= be <= 1 -> x = vadd c0 (vadd (vscal al A) (vscal be B)) ->
     S0 <= n -> norm (cross A B) = n -> (forall w, Rabs (dot w (cross A B)) = Rabs (co ka w) * n) ->
     quad_collision p q t1' t2' t3' t4' = true).
  { intros c0 A B t1' t2' t3' t4' al be ka n -> -> -> -> Ha Hb E Sn Nn Dn.
    apply rect_hit with (s := s) (al := al) (be := be); auto.
    - rewrite Nn. lra.
    - rewrite Dn. apply steep_slant with (s := S0); auto. lra. }
  destruct k; destruct F as [F|F]; cbn [co] in F; apply orb_true_iff.
  - (* x = b1 : c000 c010 c011 c001 *)
    left. do 3 (apply orb_true_iff; left). apply orb_true_iff. right.
    apply (Q (V (vx b1) (vy b1) (vz b1)) (V 0 dy 0) (V 0 0 dz)) with (al := fy) (be := fz) (ka := AX) (n := dy * dz); auto;
      try (unfold dx, dy, dz; vunf; f_equal; ring).
    + rewrite X, F, Ey, Ez. vunf. f_equal; ring.
    + unfold cross. cbn [vx vy vz]. replace (V _ _ _) with (V (dy * dz) 0 0) by (f_equal; ring). rewrite (proj1 (norm_axis _)), Rabs_right; lra.
    + intros w. cbn [co]. rewrite <- (Rabs_right (dy * dz)) by lra. rewrite <- Rabs_mult. f_equal. vunf. ring.
  - (* x = b2 : c100 c101 c111 c110 *)
    left. apply orb_true_iff. right.
    apply (Q (V (vx b2) (vy b1) (vz b1)) (V 0 0 dz) (V 0 dy 0)) with (al := fz) (be := fy) (ka := AX) (n := dy * dz); auto;
      try (unfold dx, dy, dz; vunf; f_equal; ring).
    + rewrite X, F, Ey, Ez. vunf. f_equal; ring.
    + unfold cross. cbn [vx vy vz]. replace (V _ _ _) with (V (- (dy * dz)) 0 0) by (f_equal; ring). rewrite (proj1 (norm_axis _)), Rabs_Ropp, Rabs_right; lra.
    + intros w. cbn [co]. rewrite <- (Rabs_right (dy * dz)) by lra. rewrite <- Rabs_mult, <- Rabs_Ropp. f_equal. vunf. ring.
  - (* y = b1 : c000 c100 c101 c001 *)
    left. do 2 (apply orb_true_iff; left). apply orb_true_iff. right.
    apply (Q (V (vx b1) (vy b1) (vz b1)) (V dx 0 0) (V 0 0 dz)) with (al := fx) (be := fz) (ka := AY) (n := dx * dz); auto;
      try (unfold dx, dy, dz; vunf; f_equal; ring).
    + rewrite X, F, Ex, Ez. vunf. f_equal; ring.
    + unfold cross. cbn [vx vy vz]. replace (V _ _ _) with (V 0 (- (dx * dz)) 0) by (f_equal; ring). rewrite (proj1 (proj2 (norm_axis _))), Rabs_Ropp, Rabs_right; lra.
    + intros w. cbn [co]. rewrite <- (Rabs_right (dx * dz)) by lra. rewrite <- Rabs_mult, <- Rabs_Ropp. f_equal. vunf. ring.
  - (* y = b2 : c010 c110 c111 c011 *)
    left. apply orb_true_iff; left. apply orb_true_iff. right.
    apply (Q (V (vx b1) (vy b2) (vz b1)) (V dx 0 0) (V 0 0 dz)) with (al := fx) (be := fz) (ka := AY) (n := dx * dz); auto;
      try (unfold dx, dy, dz; vunf; f_equal; ring).
    + rewrite X, F, Ex, Ez. vunf. f_equal; ring.
    + unfold cross. cbn [vx vy vz]. replace (V _ _ _) with (V 0 (- (dx * dz)) 0) by (f_equal; ring). rewrite (proj1 (proj2 (norm_axis _))), Rabs_Ropp, Rabs_right; lra.
    + intros w. cbn [co]. rewrite <- (Rabs_right (dx * dz)) by lra. rewrite <- Rabs_mult, <- Rabs_Ropp. f_equal. vunf. ring.
  - (* z = b1 : c000 c100 c110 c010 *)
    left. do 4 (apply orb_true_iff; left).
    apply (Q (V (vx b1) (vy b1) (vz b1)) (V dx 0 0) (V 0 dy 0)) with (al := fx) (be := fy) (ka := AZ) (n := dx * dy); auto;
      try (unfold dx, dy, dz; vunf; f_equal; ring).
    + rewrite X, F, Ex, Ey. vunf. f_equal; ring.
    + unfold cross. cbn [vx vy vz]. replace (V _ _ _) with (V 0 0 (dx * dy)) by (f_equal; ring). rewrite (proj2 (proj2 (norm_axis _))), Rabs_right; lra.
    + intros w. cbn [co]. rewrite <- (Rabs_right (dx * dy)) by lra. rewrite <- Rabs_mult. f_equal. vunf. ring.
  - (* z = b2 : c001 c101 c111 c011 *)
    right.
    apply (Q (V (vx b1) (vy b1) (vz b2)) (V dx 0 0) (V 0 dy 0)) with (al := fx) (be := fy) (ka := AZ) (n := dx * dy); auto;
      try (unfold dx, dy, dz; vunf; f_equal; ring).
    + rewrite X, F, Ex, Ey. vunf. f_equal; ring.
    + unfold cross. cbn [vx vy vz]. replace (V _ _ _) with (V 0 0 (dx * dy)) by (f_equal; ring). rewrite (proj2 (proj2 (norm_axis _))), Rabs_right; lra.
    + intros w. cbn [co]. rewrite <- (Rabs_right (dx * dy)) by lra. rewrite <- Rabs_mult. f_equal. vunf. ring.
Qed.
(** components of the normal bounded away from zero *)
Definition oblique (t1 t2 t3 : vec) := forall k, EPS <= Rabs (co k (tri_normal t1 t2 t3)).
Lemma oblique_area : forall t1 t2 t3, oblique t1 t2 t3 -> EPS < area2 t1 t2 t3.
Proof.
  intros t1 t2 t3 O. pose proof EPS_pos as E. unfold area2. fold (tri_normal t1 t2 t3).
  pose proof (O AX) as A. pose proof (O AY) as B. cbn [co] in A, B. set (N := tri_normal t1 t2 t3) in *.
  unfold norm. rewrite <- (sqrt_Rsqr EPS) by lra. apply sqrt_lt_1_alt. unfold Rsqr. split; [nra|].
  assert (Sq : forall a, EPS <= Rabs a -> EPS * EPS <= a * a).
  { intros a H. replace (a * a) with (Rabs a * Rabs a); [nra|]. rewrite <- Rabs_mult. apply Rabs_right. pose proof (Rle_0_sqr a) as Q. unfold Rsqr in Q. lra. }
  pose proof (Sq _ A). pose proof (Sq _ B). pose proof (Rle_0_sqr (vz N)) as Q. unfold Rsqr in Q. nra.
Qed.
Lemma axis_edge : forall t1 t2 t3 k c c' x s, oblique t1 t2 t3 -> 0 <= s <= 1 -> x = at_frac c c' s -> in_triangle t1 t2 t3 x ->
  co k c <> co k c' -> (forall l, l <> k -> co l c = co l c') -> ge0 (tri_collision c c' t1 t2 t3) = true.
Proof.
  intros t1 t2 t3 k c c' x s O Hs -> I Nk El. apply hits_ge0 with (s := s).
  - now apply oblique_area.
  - unfold slant. fold (tri_normal t1 t2 t3). pose proof (O k) as Ok. set (N := tri_normal t1 t2 t3) in *.
    assert (E : dot (vsub c' c) N = (co k c' - co k c) * co k N /\ norm (vsub c' c) = Rabs (co k c' - co k c)).
    { destruct k; cbn [co] in *.
      - assert (A := El AY ltac:(discriminate)). assert (B := El AZ ltac:(discriminate)). cbn [co] in A, B.
        unfold vsub. rewrite A, B, !Rminus_eq_0. split; [unfold dot; cbn [vx vy vz]; ring | apply norm_axis].
      - assert (A := El AX ltac:(discriminate)). assert (B := El AZ ltac:(discriminate)). cbn [co] in A, B.
        unfold vsub. rewrite A, B, !Rminus_eq_0. split; [unfold dot; cbn [vx vy vz]; ring | apply norm_axis].
      - assert (A := El AX ltac:(discriminate)). assert (B := El AY ltac:(discriminate)). cbn [co] in A, B.
        unfold vsub. rewrite A, B, !Rminus_eq_0. split; [unfold dot; cbn [vx vy vz]; ring | apply norm_axis]. }
    destruct E as [-> ->]. rewrite Rabs_mult.
    assert (0 < Rabs (co k c' - co k c)) by (apply Rabs_pos_lt; lra).
    replace (_ / _) with (Rabs (co k N)); [auto|field; lra].
  - split; auto.
Qed.
Lemma box_edge : forall t1 t2 t3 b1 b2 x k l, oblique t1 t2 t3 -> in_triangle t1 t2 t3 x ->
  vx b1 < vx b2 -> vy b1 < vy b2 -> vz b1 < vz b2 -> in_box b1 b2 x -> k <> l ->
  (co k x = co k b1 \/ co k x = co k b2) -> (co l x = co l b1 \/ co l x = co l b2) ->
  existsb (fun e => ge0 (tri_collision (fst e) (snd e) t1 t2 t3))
   [(V (vx b1) (vy b1) (vz b1), V (vx b2) (vy b1) (vz b1)); (V (vx b1) (vy b1) (vz b1), V (vx b1) (vy b2) (vz b1));
    (V (vx b2) (vy b2) (vz b1), V (vx b1) (vy b2) (vz b1)); (V (vx b2) (vy b2) (vz b1), V (vx b2) (vy b1) (vz b1));
    (V (vx b1) (vy b1) (vz b1), V (vx b1) (vy b1) (vz b2)); (V (vx b1) (vy b2) (vz b1), V (vx b1) (vy b2) (vz b2));
    (V (vx b2) (vy b1) (vz b1), V (vx b2) (vy b1) (vz b2)); (V (vx b2) (vy b2) (vz b1), V (vx b2) (vy b2) (vz b2));
    (V (vx b1) (vy b1) (vz b2), V (vx b2) (vy b1) (vz b2)); (V (vx b1) (vy b1) (vz b2), V (vx b1) (vy b2) (vz b2));
    (V (vx b2) (vy b2) (vz b2), V (vx b1) (vy b2) (vz b2)); (V (vx b2) (vy b2) (vz b2), V (vx b2) (vy b1) (vz b2))] = true.
Proof.
  intros t1 t2 t3 b1 b2 x k l O I Lx Ly Lz IB NE Fk Fl.
  pose proof (IB AX) as Bx. pose proof (IB AY) as By'. pose proof (IB AZ) as Bz. cbn [co] in Bx, By', Bz.
  destruct (frac01 _ _ _ Lx Bx) as [Fx Ex]. destruct (frac01 _ _ _ Ly By') as [Fy Ey]. destruct (frac01 _ _ _ Lz Bz) as [Fz Ez].
  set (fx := (vx x - vx b1) / (vx b2 - vx b1)) in *. set (fy := (vy x - vy b1) / (vy b2 - vy b1)) in *.
  set (fz := (vz x - vz b1) / (vz b2 - vz b1)) in *. clearbody fx fy fz.
  assert (X : x = V (vx x) (vy x) (vz x)) by (destruct x; auto).
  assert (H : ((vy x = vy b1 \/ vy x = vy b2) /\ (vz x = vz b1 \/ vz x = vz b2)) \/
              ((vx x = vx b1 \/ vx x = vx b2) /\ (vz x = vz b1 \/ vz x = vz b2)) \/
              ((vx x = vx b1 \/ vx x = vx b2) /\ (vy x = vy b1 \/ vy x = vy b2))).
  { destruct k, l; cbn [co] in Fk, Fl; try congruence; tauto. }
  clear Fk Fl NE k l. apply existsb_exists.
  destruct H as [[[A|A] [B|B]]|[[[A|A] [B|B]]|[[A|A] [B|B]]]].
  - exists (V (vx b1) (vy b1) (vz b1), V (vx b2) (vy b1) (vz b1)). split; [cbn; tauto|]. cbn [fst snd].
    apply axis_edge with (k := AX) (x := x) (s := fx); auto; [|cbn; lra|intros []; cbn; congruence].
    rewrite X, A, B, Ex. unfold at_frac. vunf. f_equal; ring.
  - exists (V (vx b1) (vy b1) (vz b2), V (vx b2) (vy b1) (vz b2)). split; [cbn; tauto|]. cbn [fst snd].
    apply axis_edge with (k := AX) (x := x) (s := fx); auto; [|cbn; lra|intros []; cbn; congruence].
    rewrite X, A, B, Ex. unfold at_frac. vunf. f_equal; ring.
  - exists (V (vx b2) (vy b2) (vz b1), V (vx b1) (vy b2) (vz b1)). split; [cbn; tauto|]. cbn [fst snd].
    apply axis_edge with (k := AX) (x := x) (s := 1 - fx); auto; [lra| |cbn; lra|intros []; cbn; congruence].
    rewrite X, A, B, Ex. unfold at_frac. vunf. f_equal; ring.
  - exists (V (vx b2) (vy b2) (vz b2), V (vx b1) (vy b2) (vz b2)). split; [cbn; tauto|]. cbn [fst snd].
    apply axis_edge with (k := AX) (x := x) (s := 1 - fx); auto; [lra| |cbn; lra|intros []; cbn; congruence].
    rewrite X, A, B, Ex. unfold at_frac. vunf. f_equal; ring.
  - exists (V (vx b1) (vy b1) (vz b1), V (vx b1) (vy b2) (vz b1)). split; [cbn; tauto|]. cbn [fst snd].
    apply axis_edge with (k := AY) (x := x) (s := fy); auto; [|cbn; lra|intros []; cbn; congruence].
    rewrite X, A, B, Ey. unfold at_frac. vunf. f_equal; ring.
  - exists (V (vx b1) (vy b1) (vz b2), V (vx b1) (vy b2) (vz b2)). split; [cbn; tauto|]. cbn [fst snd].
    apply axis_edge with (k := AY) (x := x) (s := fy); auto; [|cbn; lra|intros []; cbn; congruence].
    rewrite X, A, B, Ey. unfold at_frac. vunf. f_equal; ring.
  - exists (V (vx b2) (vy b2) (vz b1), V (vx b2) (vy b1) (vz b1)). split; [cbn; tauto|]. cbn [fst snd].
    apply axis_edge with (k := AY) (x := x) (s := 1 - fy); auto; [lra| |cbn; lra|intros []; cbn; congruence].
    rewrite X, A, B, Ey. unfold at_frac. vunf. f_equal; ring.
  - exists (V (vx b2) (vy b2) (vz b2), V (vx b2) (vy b1) (vz b2)). split; [cbn; tauto|]. cbn [fst snd].
    apply axis_edge with (k := AY) (x := x) (s := 1 - fy); auto; [lra| |cbn; lra|intros []; cbn; congruence].
    rewrite X, A, B, Ey. unfold at_frac. vunf. f_equal; ring.
  - exists (V (vx b1) (vy b1) (vz b1), V (vx b1) (vy b1) (vz b2)). split; [cbn; tauto|]. cbn [fst snd].
    apply axis_edge with (k := AZ) (x := x) (s := fz); auto; [|cbn; lra|intros []; cbn; congruence].
    rewrite X, A, B, Ez. unfold at_frac. vunf. f_equal; ring.
  - exists (V (vx b1) (vy b2) (vz b1), V (vx b1) (vy b2) (vz b2)). split; [cbn; tauto|]. cbn [fst snd].
    apply axis_edge with (k := AZ) (x := x) (s := fz); auto; [|cbn; lra|intros []; cbn; congruence].
    rewrite X, A, B, Ez. unfold at_frac. vunf. f_equal; ring.
  - exists (V (vx b2) (vy b1) (vz b1), V (vx b2) (vy b1) (vz b2)). split; [cbn; tauto|]. cbn [fst snd].
    apply axis_edge with (k := AZ) (x := x) (s := fz); auto; [|cbn; lra|intros []; cbn; congruence].
    rewrite X, A, B, Ez. unfold at_frac. vunf. f_equal; ring.
  - exists (V (vx b2) (vy b2) (vz b1), V (vx b2) (vy b2) (vz b2)). split; [cbn; tauto|]. cbn [fst snd].
    apply axis_edge with (k := AZ) (x := x) (s := fz); auto; [|cbn; lra|intros []; cbn; congruence].
    rewrite X, A, B, Ez. unfold at_frac. vunf. f_equal; ring.
Qed.

(** ** The box test *)
Definition resolved (s : R) (t1 t2 t3 : vec) :=
  oblique t1 t2 t3 /\ steep s t1 t2 /\ steep s t3 t2 /\ steep s t1 t3.
Lemma cube_components : forall t1 t2 t3 b1 b2,
  in_box b1 b2 t1 \/ (in_box b1 b2 t2 /\ vx b1 < vx t2) \/ in_box b1 b2 t3 \/
  existsb (fun e => ge0 (tri_collision (fst e) (snd e) t1 t2 t3))
   [(V (vx b1) (vy b1) (vz b1), V (vx b2) (vy b1) (vz b1)); (V (vx b1) (vy b1) (vz b1), V (vx b1) (vy b2) (vz b1));
    (V (vx b2) (vy b2) (vz b1), V (vx b1) (vy b2) (vz b1)); (V (vx b2) (vy b2) (vz b1), V (vx b2) (vy b1) (vz b1));
    (V (vx b1) (vy b1) (vz b1), V (vx b1) (vy b1) (vz b2)); (V (vx b1) (vy b2) (vz b1), V (vx b1) (vy b2) (vz b2));
    (V (vx b2) (vy b1) (vz b1), V (vx b2) (vy b1) (vz b2)); (V (vx b2) (vy b2) (vz b1), V (vx b2) (vy b2) (vz b2));
    (V (vx b1) (vy b1) (vz b2), V (vx b2) (vy b1) (vz b2)); (V (vx b1) (vy b1) (vz b2), V (vx b1) (vy b2) (vz b2));
    (V (vx b2) (vy b2) (vz b2), V (vx b1) (vy b2) (vz b2)); (V (vx b2) (vy b2) (vz b2), V (vx b2) (vy b1) (vz b2))] = true \/
  quads t1 t2 b1 b2 = true \/ quads t3 t2 b1 b2 = true \/ quads t1 t3 b1 b2 = true ->
  tri_in_cube t1 t2 t3 b1 b2 = true.
Proof.
  intros t1 t2 t3 b1 b2 H. unfold tri_in_cube. cbv zeta.
  assert (E : forall a b, a <= b -> leb a b = true) by (intros; unfold leb; destruct (Rle_dec _ _); auto; lra).
  assert (F : forall a b, a < b -> ltb a b = true) by (intros; unfold ltb; destruct (Rlt_dec _ _); auto; lra).
  destruct (leb (vx b1) (vx t1) && _ && _ && _ && _ && _) eqn:Q1; auto.
  destruct (ltb _ _ && _ && _ && _ && _ && _) eqn:Q2; auto.
  destruct (leb (vx b1) (vx t3) && _ && _ && _ && _ && _) eqn:Q3; auto.
  destruct H as [H|[[H H']|[H|[H|[H|[H|H]]]]]].
  - pose proof (H AX). pose proof (H AY). pose proof (H AZ). cbn [co] in *. rewrite !E in Q1 by tauto. discriminate.
  - pose proof (H AX). pose proof (H AY). pose proof (H AZ). cbn [co] in *. rewrite F, !E in Q2 by tauto. discriminate.
  - pose proof (H AX). pose proof (H AY). pose proof (H AZ). cbn [co] in *. rewrite !E in Q3 by tauto. discriminate.
  - now rewrite H.
  - destruct (existsb _ _); auto. unfold quads in H. cbv zeta in H. now rewrite H.
  - destruct (existsb _ _); auto. destruct (_ || _); auto. unfold quads in H. cbv zeta in H. now rewrite H.
  - destruct (existsb _ _); auto. destruct (_ || _); auto. destruct (_ || _); auto. unfold quads in H. cbv zeta in H. now rewrite H.
Qed.
Theorem cube_complete : forall S0 t1 t2 t3 b1 b2 x, EPS < S0 -> faces_at_least S0 b1 b2 -> resolved S0 t1 t2 t3 ->
  in_triangle t1 t2 t3 x -> in_box b1 b2 x -> tri_in_cube t1 t2 t3 b1 b2 = true.
Proof.
  intros S0 t1 t2 t3 b1 b2 x SE FA (O & S12 & S32 & S13) I IB. pose proof EPS_pos as EP.
  apply in_tri_uv in I. destruct I as (u0 & v0 & U & V' & UV & E).
  assert (P0 : inP t1 t2 t3 b1 b2 u0 v0).
  { intros [| | |k|k]; cbn [val]; try lra; fold (pt t1 t2 t3 u0 v0) in E; rewrite <- E; specialize (IB k); lra. }
  assert (NZ : forall k, co k (tri_normal t1 t2 t3) <> 0).
  { intros k K. specialize (O k). rewrite K, Rabs_R0 in O. lra. }
  destruct (extreme t1 t2 t3 b1 b2 (NZ AX) (NZ AY) u0 v0 P0) as (u & v & P & H). clear u0 v0 U V' UV E P0 x IB.
  pose proof (P TU) as Pu. pose proof (P TV) as Pv. pose proof (P TW) as Pw. cbn [val] in Pu, Pv, Pw.
  set (x := pt t1 t2 t3 u v).
  assert (IB : in_box b1 b2 x). { intros k. pose proof (P (BLo k)). pose proof (P (BHi k)). cbn [val] in *. unfold x. lra. }
  assert (IT : in_triangle t1 t2 t3 x). { apply in_tri_uv. exists u, v. repeat split; auto. lra. }
  assert (F : forall t k, is_face t k -> val t1 t2 t3 b1 b2 t u v = 0 -> co k x = co k b1 \/ co k x = co k b2).
  { intros t k [->| ->] Z; cbn [val] in Z; unfold x; [left|right]; lra. }
  assert (Eg : forall s, is_edge s -> val t1 t2 t3 b1 b2 s u v = 0 -> on_face b1 b2 x -> 
     quads t1 t2 b1 b2 = true \/ quads t3 t2 b1 b2 = true \/ quads t1 t3 b1 b2 = true).
  { intros s [->|[->| ->]] Z OF; cbn [val] in Z.
    - assert (X : x = at_frac t1 t3 v) by (unfold x, pt, at_frac; rewrite Z; clear; vring).
      right. right. apply edge_face with (S0 := S0) (s := v); auto; try rewrite <- X; auto. lra.
    - assert (X : x = at_frac t1 t2 u) by (unfold x, pt, at_frac; rewrite Z; clear; vring).
      left. apply edge_face with (S0 := S0) (s := u); auto; try rewrite <- X; auto. lra.
    - assert (v = 1 - u) by lra. subst v.
      assert (X : x = at_frac t3 t2 u) by (unfold x, pt, at_frac; clear; vring).
      right. left. apply edge_face with (S0 := S0) (s := u); auto; try rewrite <- X; auto. lra. }
  apply cube_components.
  destruct H as [(s & t & Es & Et & NE & Zs & Zt)|[(s & t & k & Es & Ft & Zs & Zt)|(s & t & k & l & Fs & Ft & NE & Zs & Zt)]].
  - (* vertex *)
    assert (Vx : x = t1 \/ x = t2 \/ x = t3).
    { destruct Es as [->|[->| ->]], Et as [->|[->| ->]]; cbn [val] in Zs, Zt; try congruence; unfold x, pt.
      - left. rewrite Zs, Zt. clear. vring.
      - right. right. assert (v = 1) by lra. subst. clear. vring.
      - left. rewrite Zs, Zt. clear. vring.
      - right. left. assert (u = 1) by lra. subst. clear. vring.
      - right. right. assert (v = 1) by lra. subst. clear. vring.
      - right. left. assert (u = 1) by lra. subst. clear. vring. }
    destruct Vx as [X|[X|X]].
    + left. now rewrite <- X.
    + destruct (Rlt_dec (vx b1) (vx t2)) as [L|L].
      * right. left. split; auto. now rewrite <- X.
      * assert (OF : on_face b1 b2 x). { exists AX. left. specialize (IB AX). cbn [co] in *. rewrite X in *. lra. }
        do 4 right. apply Eg with (s := s); auto.
    + right. right. left. now rewrite <- X.
  - do 4 right. apply Eg with (s := s); auto. exists k. eapply F; eauto.
  - do 3 right. left. destruct FA as (Lx & Ly & Lz & _). apply box_edge with (x := x) (k := k) (l := l); auto; eapply F; eauto.
Qed.
