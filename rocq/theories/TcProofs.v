(** Specification and proofs for the transport coefficient diagnostics. *)
From Coq Require Import Reals ZArith List Bool Lra Lia Sorted.
From Verif Require Import MathModel MathProofs TcModel.
Import ListNotations.
Local Open Scope R_scope.

(** ** Crossings *)
Definition multiple (x : R) : Prop := exists k, x = 2 * PI * IZR k.
(** the outer midplane is passed between the two angles *)
Definition passes (fang iang : R) : Prop :=
  exists k, iang < 2 * PI * IZR k <= fang \/ fang < 2 * PI * IZR k <= iang.

Lemma twopi_pos : 0 < 2 * PI. Proof. pose proof PI_RGT_0. lra. Qed.
Lemma div_twopi : forall x y, x / (2 * PI) < y <-> x < 2 * PI * y.
Proof.
  intros x y. pose proof twopi_pos as P. replace x with (2 * PI * (x / (2 * PI))) at 2 by (field; lra). split; intros H.
  - apply Rmult_lt_compat_l; auto.
  - apply Rmult_lt_reg_l in H; auto.
Qed.
Lemma twopi_div : forall x y, y <= x / (2 * PI) <-> 2 * PI * y <= x.
Proof.
  intros x y. split; intros H; apply Rnot_lt_le; intros L.
  - apply div_twopi in L. lra.
  - apply div_twopi in L. lra.
Qed.

Lemma floors_differ : forall f i, floorR (f / (2 * PI)) <> floorR (i / (2 * PI)) <-> passes f i.
Proof.
  intros f i. unfold passes. set (a := f / (2 * PI)). set (b := i / (2 * PI)). split.
  - intros N. destruct (Rtotal_order (floorR a) (floorR b)) as [L|[E|G]]; [| contradiction |].
    + exists (Int_part b). right. pose proof (floor_spec a). pose proof (floor_spec b). unfold floorR in *.
      split; [apply div_twopi; fold a | apply twopi_div; fold b; lra].
      apply lt_IZR in L. assert (IZR (Int_part a + 1) <= IZR (Int_part b)) by (apply IZR_le; lia). rewrite plus_IZR in *. lra.
    + exists (Int_part a). left. pose proof (floor_spec a). pose proof (floor_spec b). unfold floorR in *.
      split; [apply div_twopi; fold b | apply twopi_div; fold a; lra].
      apply lt_IZR in G. assert (IZR (Int_part b + 1) <= IZR (Int_part a)) by (apply IZR_le; lia). rewrite plus_IZR in *. lra.
  - intros [k [[A B]|[A B]]] E; apply div_twopi in A; apply twopi_div in B; fold a b in A, B;
      pose proof (floor_spec a) as [Fa Ga]; pose proof (floor_spec b) as [Fb Gb]; unfold floorR in *.
    + assert (IZR (Int_part b) < IZR k) by lra. assert (IZR k < IZR (Int_part a + 1)) by (rewrite plus_IZR; lra).
      apply lt_IZR in H, H0. apply eq_IZR in E. lia.
    + assert (IZR (Int_part a) < IZR k) by lra. assert (IZR k < IZR (Int_part b + 1)) by (rewrite plus_IZR; lra).
      apply lt_IZR in H, H0. apply eq_IZR in E. lia.
Qed.

Lemma fmod0_multiple : forall x, fmod x (2 * PI) = 0 <-> multiple x.
Proof.
  intros x. split.
  - intros H. destruct (fmod_congr x (2 * PI)) as [n E]. exists n. lra.
  - intros [k E]. rewrite (fmod_unique x (2 * PI) k twopi_pos); [lra|]. pose proof twopi_pos. lra.
Qed.
Lemma multiple_opp : forall x, multiple (- x) <-> multiple x.
Proof. intros x. split; intros [k E]; exists (- k)%Z; rewrite opp_IZR; lra. Qed.

Lemma crossing_iff : forall fang iang, 0 < crossing fang iang <-> passes fang iang /\ ~ multiple iang.
Proof.
  intros f i. unfold crossing. destruct (Req_EM_T _ _) as [E|N].
  - split; [lra|]. intros [P _]. apply floors_differ in P. contradiction.
  - pose proof N as P. apply floors_differ in P. cbv zeta.
    assert (FI : f - i <> 0). { intros H. apply N. replace f with i by lra. reflexivity. }
    assert (S : fmodc i (2 * PI) = 0 <-> multiple i).
    { unfold fmodc. destruct (Rle_dec 0 (i / (2 * PI))); [apply fmod0_multiple|].
      rewrite <- multiple_opp, <- fmod0_multiple. split; lra. }
    assert (B : - (2 * PI) < fmodc i (2 * PI) < 2 * PI).
    { unfold fmodc. pose proof twopi_pos. destruct (Rle_dec 0 (i / (2 * PI))).
      - pose proof (fmod_range i (2 * PI)). lra. - pose proof (fmod_range (- i) (2 * PI)). lra. }
    set (a := fmodc i (2 * PI)) in *. clearbody a.
    assert (X : forall u, 0 <= u -> (0 < Rabs (u / (f - i)) <-> u <> 0)).
    { intros u U. split.
      - intros H E. subst u. unfold Rdiv in H. rewrite Rmult_0_l, Rabs_R0 in H. lra.
      - intros H. apply Rabs_pos_lt. unfold Rdiv. apply Rmult_integral_contrapositive. split; auto. apply Rinv_neq_0_compat; auto. }
    pose proof PI_RGT_0.
    destruct (Rlt_dec a 0) as [L|L].
    + rewrite (Rabs_pos_eq (2 * PI + a)) by lra. destruct (Rlt_dec PI (2 * PI + a)); rewrite X by lra; (split; [intros; split; auto; rewrite <- S; lra|lra]).
    + rewrite (Rabs_pos_eq a) by lra. destruct (Rlt_dec PI a); rewrite X by lra; (split; [intros Q; split; auto; rewrite <- S; lra|intros [_ Q]; rewrite <- S in Q; lra]).
Qed.

(** a passage split at a midplane point that is stepped on exactly *)
Lemma crossing_lost : forall k d, 0 < d < 2 * PI ->
  let m := 2 * PI * IZR k in crossing m (m + d) = 0 /\ crossing (m - d) m = 0 /\ 0 < crossing (m - d) (m + d).
Proof.
  intros k d D m. assert (Z0 : forall f i, ~ (0 < crossing f i) -> crossing f i = 0).
  { intros f i H. assert (0 <= crossing f i); [|lra]. unfold crossing. destruct (Req_EM_T _ _); [lra|]. apply Rabs_pos. }
  assert (NM : forall u, 0 < u < 2 * PI -> ~ multiple (m + u)).
  { intros u U [j E]. unfold m in E. assert (A : 0 < 2 * PI * (IZR j - IZR k)) by lra. assert (B : 2 * PI * (IZR j - IZR k) < 2 * PI * 1) by lra.
    apply Rmult_lt_reg_l in B; [|apply twopi_pos]. rewrite <- (Rmult_0_r (2 * PI)) in A. apply Rmult_lt_reg_l in A; [|apply twopi_pos].
    rewrite <- minus_IZR in *. apply lt_IZR in A, B. lia. }
  split; [|split].
  - apply Z0. rewrite crossing_iff. intros [[j H] _]. unfold m in *. destruct H as [H|H]; [lra|].
    assert (A : 2 * PI * IZR k < 2 * PI * IZR j) by lra. apply Rmult_lt_reg_l in A; [|apply twopi_pos]. apply lt_IZR in A.
    assert (IZR (k + 1) <= IZR j) by (apply IZR_le; lia). rewrite plus_IZR in *. pose proof twopi_pos.
    assert (2 * PI * (IZR k + 1) <= 2 * PI * IZR j) by (apply Rmult_le_compat_l; lra). lra.
  - apply Z0. rewrite crossing_iff. intros [_ H]. apply H. exists k. reflexivity.
  - apply crossing_iff. split; [exists k; right; unfold m; lra|apply NM; auto].
Qed.

(** ** Points and averages *)
Record pt := Pt { q_rho : R; q_time : R; q_fwd : bool }.

(** the points of the direction seen more often, co-going on a tie *)
Definition codir (l : list pt) := filter q_fwd l.
Definition counter (l : list pt) := filter (fun p => negb (q_fwd p)) l.
Definition majority (l : list pt) : list pt :=
  if (length (counter l) <=? length (codir l))%nat then codir l else counter l.

Definition total (f : pt -> R) (l : list pt) : R := fold_right (fun p s => f p + s) 0 l.
Definition mean (f : pt -> R) (l : list pt) : R := total f l / INR (length l).
(** n groups of w points *)
Fixpoint chunks (w n : nat) (l : list pt) : list (list pt) :=
  match n with O => [] | S n => firstn w l :: chunks w n (skipn w l) end.
(** the newest group has the remainder, if there is one; newest group first *)
Definition head_size (w d : nat) : nat := if (d mod w =? 0)%nat then w else d mod w.
Definition grouping (w : nat) (l : list pt) : list (list pt) :=
  firstn (head_size w (length l)) l :: chunks w (length l / w - 1) (skipn (head_size w (length l)) l).
Definition avg (g : list pt) : R * R := (mean q_rho g, mean q_time g).
(** averaged points, oldest first *)
Definition averaged (w : nat) (l : list pt) : list (R * R) := rev (map avg (grouping w l)).

(** drift and diffusion of a sequence of points *)
Definition steps (pts : list (R * R)) : list (R * R) :=
  map (fun ab => (fst (snd ab) - fst (fst ab), snd (snd ab) - snd (fst ab))) (combine pts (tl pts)).
Definition sumR (l : list R) : R := fold_right Rplus 0 l.
Definition drift (pts : list (R * R)) : R := sumR (map (fun s => fst s / snd s) (steps pts)) / INR (length pts).
Definition diffusion (pts : list (R * R)) : R :=
  sumR (map (fun s => (fst s - drift pts * snd s) ^ 2 / (2 * snd s)) (steps pts)) / INR (length pts).

Lemma sumR_app : forall a b, sumR (a ++ b) = sumR a + sumR b.
Proof. unfold sumR. induction a; intros; cbn [app fold_right]; [lra|]. rewrite IHa. lra. Qed.
Lemma steps_cons : forall p q r, steps (p :: q :: r) = (fst q - fst p, snd q - snd p) :: steps (q :: r).
Proof. reflexivity. Qed.

Lemma sumK_spec : forall pts K, Forall (fun s => snd s <> 0) (steps pts) ->
  sumK pts K = Some (K + sumR (map (fun s => fst s / snd s) (steps pts))).
Proof.
  induction pts as [|p [|q r] IH]; intros K H; try (cbn; f_equal; lra).
  rewrite steps_cons in *. inversion H as [|? ? A B]; subst. cbn [snd] in A.
  change (sumK (p :: q :: r) K) with (match rdiv (fst q - fst p) (snd q - snd p) with None => None | Some x => sumK (q :: r) (K + x) end). unfold rdiv. destruct (Req_EM_T _ _); [contradiction|]. rewrite IH by auto. cbn [map sumR fold_right fst snd]. f_equal. unfold sumR. lra.
Qed.
Lemma sumD_spec : forall K pts D, Forall (fun s => snd s <> 0) (steps pts) ->
  sumD K pts D = Some (D + sumR (map (fun s => (fst s - K * snd s) ^ 2 / (2 * snd s)) (steps pts))).
Proof.
  induction pts as [|p [|q r] IH]; intros D H; try (cbn; f_equal; lra).
  rewrite steps_cons in *. inversion H as [|? ? A B]; subst. cbn [snd] in A.
  change (sumD K (p :: q :: r) D) with (let a := fst q - fst p - K * (snd q - snd p) in
    match rdiv (0.5 * a * a) (snd q - snd p) with None => None | Some x => sumD K (q :: r) (D + x) end). cbv zeta. unfold rdiv. destruct (Req_EM_T _ _); [contradiction|]. rewrite IH by auto. cbn [map sumR fold_right fst snd]. f_equal. unfold sumR.
  replace 0.5 with (/ 2) by lra. field. auto.
Qed.
Lemma coefs_spec : forall pts, pts <> [] -> Forall (fun s => snd s <> 0) (steps pts) ->
  coefs pts = Some (drift pts, diffusion pts).
Proof.
  intros pts N H. unfold coefs. rewrite sumK_spec by auto. rewrite Rplus_0_l.
  assert (L : INR (length pts) <> 0). { apply not_0_INR. destruct pts; [congruence|discriminate]. }
  unfold rdiv. destruct (Req_EM_T _ _); [contradiction|]. rewrite sumD_spec by auto.
  rewrite Rplus_0_l. reflexivity.
Qed.

(** ** Chains of links *)
Inductive chain (h : nat -> option link) : option nat -> list (nat * link) -> Prop :=
| chain_nil : chain h None []
| chain_cons : forall a k ks, h a = Some k -> chain h (l_prev k) ks -> chain h (Some a) ((a, k) :: ks).
Definition pt_of (x : nat * link) : pt := Pt (l_rho (snd x)) (l_time (snd x)) (0 <? l_sign (snd x))%Z.
Definition signed (x : nat * link) : Prop := l_sign (snd x) = 1%Z \/ l_sign (snd x) = (-1)%Z.

Definition dir (sg : Z) (p : pt) : bool := if (0 <? sg)%Z then q_fwd p else negb (q_fwd p).
Definition sel (sg : Z) (ks : list (nat * link)) : list pt := filter (dir sg) (map pt_of ks).
Lemma dir_sign : forall sg x, signed x -> (sg = 1 \/ sg = -1)%Z -> (l_sign (snd x) * sg <? 0)%Z = negb (dir sg (pt_of x)).
Proof. intros sg x [E|E] [F|F]; unfold dir, pt_of; rewrite E, F; reflexivity. Qed.

Lemma count_spec : forall ks fuel h l p n, chain h l ks -> Forall signed ks -> (length ks <= fuel)%nat ->
  count fuel h l p n = Some (p + Z.of_nat (length (codir (map pt_of ks))), n + Z.of_nat (length (counter (map pt_of ks))))%Z.
Proof.
  induction ks as [|[a k] ks IH]; intros fuel h l p n C S F; inversion C; subst.
  - destruct fuel; cbn; f_equal; f_equal; lia.
  - inversion S as [|? ? S1 S2]; subst. destruct fuel; [cbn in F; lia|]. cbn [count]. rewrite H2.
    cbn [length] in F. unfold codir, counter. cbn [map filter pt_of q_fwd snd].
    destruct S1 as [E|E]; cbn [snd] in E; rewrite E; change (1 <? 0)%Z with false; change (-1 <? 0)%Z with true; change (0 <? 1)%Z with true; change (0 <? -1)%Z with false; cbv iota; cbn [negb length];
    rewrite IH by (auto; lia); fold (codir (map pt_of ks)); fold (counter (map pt_of ks)); f_equal; f_equal; lia.
Qed.

Lemma seek_spec : forall ks fuel h l sg, chain h l ks -> Forall signed ks -> (sg = 1 \/ sg = -1)%Z -> (length ks <= fuel)%nat ->
  sel sg ks <> [] ->
  exists k r, seek fuel h l sg = Some k /\ chain h (l_prev k) r /\ Forall signed r /\ (length r < length ks)%nat /\
              sel sg ks = pt_of (0%nat, k) :: sel sg r.
Proof.
  induction ks as [|[a k] ks IH]; intros fuel h l sg C S SG F N; [contradiction|].
  inversion C; subst. inversion S as [|? ? S1 S2]; subst. cbn [length] in F.
  pose proof (dir_sign sg (a, k) S1 SG) as D. unfold sel in *. cbn [map filter] in *.
  destruct fuel; [lia|]. cbn [seek]. rewrite H2. cbn [snd] in D. rewrite D. destruct (dir sg (pt_of (a, k))); cbn [negb].
  - exists k, ks. repeat split; auto; cbn; lia.
  - destruct (IH fuel h (l_prev k) sg) as (k' & r & A & B & E & G & J); auto; [lia|].
    exists k', r. repeat split; auto. cbn; lia.
Qed.

Lemma total_cons : forall f p l, total f (p :: l) = f p + total f l. Proof. reflexivity. Qed.
Lemma gather_spec : forall m ks fuel h sg k rho time, chain h (l_prev k) ks -> Forall signed ks -> (sg = 1 \/ sg = -1)%Z ->
  (length ks <= fuel)%nat -> (m <= length (sel sg ks))%nat ->
  exists k' r, gather fuel m h sg k rho time = Some (k', rho + total q_rho (firstn m (sel sg ks)), time + total q_time (firstn m (sel sg ks)))
    /\ chain h (l_prev k') r /\ Forall signed r /\ (length r <= length ks)%nat /\ sel sg r = skipn m (sel sg ks).
Proof.
  induction m; intros ks fuel h sg k rho time C S SG F L.
  - exists k, ks. cbn. rewrite !Rplus_0_r. auto.
  - destruct (seek_spec ks fuel h (l_prev k) sg C S SG F) as (k1 & r1 & A & B & E & G & J). { intros X. rewrite X in L. cbn in L. lia. }
    cbn [gather]. rewrite A. rewrite J in *. cbn [length] in L.
    destruct (IHm r1 fuel h sg k1 (rho + l_rho k1) (time + l_time k1)) as (k2 & r2 & A2 & B2 & E2 & G2 & J2); auto; try lia.
    exists k2, r2. rewrite A2. cbn [firstn skipn]. rewrite !total_cons. cbn [pt_of q_rho q_time snd].
    repeat split; auto; [|lia]. f_equal. f_equal; [f_equal|]; lra.
Qed.

Lemma groups_spec : forall n ks fuel h sg navg k pts, chain h (l_prev k) ks -> Forall signed ks -> (sg = 1 \/ sg = -1)%Z ->
  (length ks <= fuel)%nat -> (0 < navg)%Z -> (n * Z.to_nat navg <= length (sel sg ks))%nat ->
  groups fuel h sg navg n k pts = Some (rev (map avg (chunks (Z.to_nat navg) n (sel sg ks))) ++ pts).
Proof.
  induction n; intros ks fuel h sg navg k pts C S SG F P L; [reflexivity|].
  cbn [groups]. destruct (gather_spec (Z.to_nat navg) ks fuel h sg k 0 0) as (k1 & r & A & B & E & G & J); auto; [lia|].
  rewrite A, !Rplus_0_l. unfold rdiv. destruct (Req_EM_T (IZR navg) 0) as [X|X]. { apply eq_IZR in X. lia. }
  rewrite (IHn r); auto; try lia. 2:{ rewrite J, skipn_length. lia. }
  cbn [chunks map rev]. rewrite <- app_assoc. cbn [app]. rewrite J. unfold avg at 3, mean.
  rewrite firstn_length_le by lia. rewrite INR_IZR_INZ, Z2Nat.id by lia. reflexivity.
Qed.

Lemma head_size_pos : forall w d, (0 < w)%nat -> (0 < head_size w d <= w)%nat.
Proof.
  intros w d W. unfold head_size. destruct (Nat.eqb_spec (d mod w) 0); [lia|]. pose proof (Nat.mod_upper_bound d w). lia.
Qed.
(** points used by the averages; a window of the oldest points is left out when there is a remainder *)
Lemma used_points : forall w d, (0 < w)%nat -> (w <= d)%nat ->
  (head_size w d + (d / w - 1) * w = d - (if d mod w =? 0 then 0 else w))%nat.
Proof.
  intros w d W H. unfold head_size. pose proof (Nat.div_mod d w ltac:(lia)) as E.
  assert (1 <= d / w)%nat by (apply Nat.div_le_lower_bound; lia).
  destruct (Nat.eqb_spec (d mod w) 0); rewrite Nat.mul_sub_distr_r; nia.
Qed.

Lemma averages_spec : forall ks fuel h l sg navg, chain h l ks -> Forall signed ks -> (sg = 1 \/ sg = -1)%Z ->
  (length ks <= fuel)%nat -> (0 < navg)%Z -> (navg < Z.of_nat (length (sel sg ks)))%Z ->
  averages fuel h l sg navg (Z.of_nat (length (sel sg ks))) = Some (averaged (Z.to_nat navg) (sel sg ks)).
Proof.
  intros ks fuel h l sg navg C S SG F P L. set (w := Z.to_nat navg). set (d := length (sel sg ks)) in *.
  assert (W : Z.of_nat w = navg) by (apply Z2Nat.id; lia). assert (WP : (0 < w)%nat) by lia.
  assert (Q : Z.quot (Z.of_nat d) navg = Z.of_nat (d / w)). { rewrite <- W, Z.quot_div_nonneg by lia. rewrite Nat2Z.inj_div. reflexivity. }
  assert (DW : (1 <= d / w)%nat) by (apply Nat.div_le_lower_bound; lia).
  assert (X : (Z.of_nat d - Z.of_nat (d / w) * navg = Z.of_nat (d mod w))%Z).
  { rewrite <- W. pose proof (Nat.div_mod d w ltac:(lia)). nia. }
  unfold averages. rewrite Q. destruct (Z.eqb_spec navg 0); [lia|]. destruct (Z.ltb_spec (Z.of_nat (d / w)) 1); [lia|]. cbv zeta.
  rewrite X. destruct (seek_spec ks fuel h l sg C S SG F) as (k & r & A & B & E & G & J). { intros Y. unfold d in L. rewrite Y in L. cbn in L. lia. }
  rewrite A. assert (HS : (if (Z.of_nat (d mod w) =? 0)%Z then navg else Z.of_nat (d mod w)) = Z.of_nat (head_size w d)).
  { unfold head_size. destruct (Z.eqb_spec (Z.of_nat (d mod w)) 0), (Nat.eqb_spec (d mod w) 0); lia. }
  rewrite HS. pose proof (head_size_pos w d WP) as HP. set (c := head_size w d) in *.
  assert (U := used_points w d WP ltac:(lia)). fold c in U.
  assert (DR : d = Datatypes.S (length (sel sg r))) by (unfold d; rewrite J; reflexivity).
  destruct (gather_spec (Z.to_nat (Z.of_nat c - 1)) r fuel h sg k (l_rho k) (l_time k)) as (k1 & r1 & A1 & B1 & E1 & G1 & J1); auto; try lia.
  rewrite A1. unfold rdiv. destruct (Req_EM_T (IZR (Z.of_nat c)) 0) as [Y|Y]. { apply eq_IZR in Y. lia. }
  replace (Z.to_nat (Z.of_nat (d / w) - 1)) with (d / w - 1)%nat by lia.
  replace (Z.to_nat (Z.of_nat c - 1)) with (c - 1)%nat in * by lia.
  assert (SK : sel sg r1 = skipn c (sel sg ks)). { rewrite J1, J. destruct c; [lia|]. cbn [skipn]. f_equal. lia. }
  rewrite (groups_spec _ r1); auto; try lia.
  2:{ fold w. rewrite SK, skipn_length. fold d. destruct (d mod w =? 0)%nat; lia. }
  unfold averaged, grouping. fold d. fold c. cbn [map rev]. fold w. rewrite SK. f_equal. f_equal. f_equal.
  unfold avg, mean. rewrite firstn_length_le by (fold d; destruct (d mod w =? 0)%nat; lia). rewrite INR_IZR_INZ.
  rewrite J. destruct c as [|c']; [lia|]. replace (Datatypes.S c' - 1)%nat with c' by lia. cbn [firstn]. rewrite !total_cons. reflexivity.
Qed.

(** ** Averaged times increase *)
Definition newest_first (l : list pt) : Prop := StronglySorted (fun p q => q_time q < q_time p) l.
Lemma ss_app : forall (A : Type) (Rel : A -> A -> Prop) a b, StronglySorted Rel (a ++ b) ->
  StronglySorted Rel a /\ StronglySorted Rel b /\ forall x y, In x a -> In y b -> Rel x y.
Proof.
  induction a; intros b H; cbn in *; [repeat split; auto; [constructor|intros; contradiction]|].
  inversion H as [|? ? H1 H2]; subst. destruct (IHa b H1) as (P & Q & T). rewrite Forall_app in H2. destruct H2 as [H2 H3].
  repeat split; auto; [constructor; auto|]. intros x y [X|X] Y; [subst; rewrite Forall_forall in H3; auto|auto].
Qed.
Lemma ss_filter : forall f l, newest_first l -> newest_first (filter f l).
Proof.
  intros f l H. induction H; cbn; [constructor|]. destruct (f a); auto. constructor; auto.
  rewrite Forall_forall in *. intros x X. apply filter_In in X. apply H0. tauto.
Qed.
Lemma mean_bound : forall f l b, l <> [] -> (forall p, In p l -> b < f p) -> b < mean f l.
Proof.
  intros f l b N H. unfold mean. assert (P : 0 < INR (length l)) by (apply lt_0_INR; destruct l; [congruence|cbn; lia]).
  assert (T : forall l', l' <> [] -> (forall p, In p l' -> b < f p) -> b * INR (length l') < total f l').
  { induction l' as [|p [|q r] IH]; intros N' H'; [congruence|..].
    - cbn. specialize (H' p (or_introl eq_refl)). lra.
    - rewrite total_cons. change (length (p :: q :: r)) with (S (length (q :: r))). rewrite S_INR.
      assert (b * INR (length (q :: r)) < total f (q :: r)). { apply IH; [discriminate|]. intros; apply H'; right; auto. }
      specialize (H' p (or_introl eq_refl)). lra. }
  apply Rmult_lt_reg_r with (INR (length l)); auto. unfold Rdiv. rewrite Rmult_assoc, Rinv_l, Rmult_1_r by lra. auto.
Qed.
Lemma mean_opp : forall f l, mean (fun p => - f p) l = - mean f l.
Proof. intros f l. unfold mean. assert (total (fun p => - f p) l = - total f l). { induction l; cbn; [lra|]. unfold total in IHl. rewrite IHl. lra. } rewrite H. unfold Rdiv. lra. Qed.
Lemma mean_lt : forall f a b, a <> [] -> b <> [] -> (forall x y, In x a -> In y b -> f y < f x) -> mean f b < mean f a.
Proof.
  intros f a b A B H. apply mean_bound; auto. intros x X.
  assert (- f x < mean (fun p => - f p) b). { apply mean_bound; auto. intros y Y. specialize (H x y X Y). lra. }
  rewrite mean_opp in H0. lra.
Qed.

Lemma firstn_add : forall (A : Type) c m (l : list A), firstn (c + m) l = firstn c l ++ firstn m (skipn c l).
Proof. induction c; intros m l; [reflexivity|]. destruct l; cbn; [rewrite firstn_nil; reflexivity|]. f_equal. auto. Qed.
(** groups taken from the front of a list in order *)
Lemma chunks_concat : forall w n l, (n * w <= length l)%nat -> concat (chunks w n l) = firstn (n * w) l.
Proof.
  induction n; intros l H; [reflexivity|]. cbn [chunks concat]. rewrite IHn by (rewrite skipn_length; lia).
  replace (S n * w)%nat with (w + n * w)%nat by lia. rewrite <- (firstn_skipn w l) at 3.
  rewrite firstn_app, firstn_length_le by lia. replace (w + n * w - w)%nat with (n * w)%nat by lia.
  f_equal. symmetry. apply firstn_all2. rewrite firstn_length. lia.
Qed.
Lemma chunks_length : forall w n l, length (chunks w n l) = n.
Proof. induction n; intros; cbn; auto. Qed.
Lemma chunks_sizes : forall w n l, (n * w <= length l)%nat -> Forall (fun g => length g = w) (chunks w n l).
Proof.
  induction n; intros l H; cbn; constructor. - apply firstn_length_le. lia. - apply IHn. rewrite skipn_length. lia.
Qed.

Lemma grouping_spec : forall w l, (0 < w)%nat -> (w <= length l)%nat ->
  let d := length l in let used := (d - (if d mod w =? 0 then 0 else w))%nat in
  length (grouping w l) = (d / w)%nat /\ concat (grouping w l) = firstn used l /\
  Forall (fun g => (0 < length g <= w)%nat) (grouping w l) /\ Forall (fun g => length g = w) (tl (grouping w l)).
Proof.
  intros w l W H d used. assert (U := used_points w d W H). fold used in U. assert (1 <= d / w)%nat by (apply Nat.div_le_lower_bound; unfold d; lia).
  pose proof (head_size_pos w d W) as HP. unfold grouping. fold d. set (c := head_size w d) in *.
  assert (CL : (c <= d)%nat) by (unfold used in U; lia).
  assert (SZ : ((d / w - 1) * w <= length (skipn c l))%nat) by (rewrite skipn_length; fold d; unfold used in U; lia).
  repeat split.
  - cbn [length]. rewrite chunks_length. lia.
  - cbn [concat]. rewrite chunks_concat by auto. rewrite <- U, firstn_add. reflexivity.
  - constructor; [rewrite firstn_length_le by (fold d; lia); auto|]. eapply Forall_impl; [|apply chunks_sizes; auto]. cbn. intros; lia.
  - cbn [tl]. apply chunks_sizes; auto.
Qed.

Definition increasing (pts : list (R * R)) : Prop := StronglySorted (fun p q => snd p < snd q) pts.
Lemma ss_snoc : forall pts p, increasing pts -> Forall (fun q => snd q < snd p) pts -> increasing (pts ++ [p]).
Proof.
  intros pts p H. induction H; intros F; cbn; [repeat constructor|]. inversion F; subst. constructor; [apply IHStronglySorted; auto|].
  apply Forall_app. split; auto.
Qed.
Lemma groups_increase : forall gs, newest_first (concat gs) -> Forall (fun g => (0 < length g)%nat) gs -> increasing (rev (map avg gs)).
Proof.
  induction gs as [|g gs IH]; intros S F; cbn; [constructor|]. inversion F; subst. cbn in S. apply ss_app in S. destruct S as (_ & S2 & X).
  apply ss_snoc; [apply IH; auto|]. apply Forall_rev. apply Forall_map. rewrite Forall_forall. intros b B. cbn.
  apply mean_lt; [destruct g; [cbn in *; lia|discriminate]|..].
  - rewrite Forall_forall in H2. specialize (H2 b B). destruct b; [cbn in *; lia|discriminate].
  - intros x y Xi Y. apply X; auto. apply in_concat. eauto.
Qed.
Lemma averaged_increase : forall w l, (0 < w)%nat -> (w <= length l)%nat -> newest_first l -> increasing (averaged w l).
Proof.
  intros w l W L S. destruct (grouping_spec w l W L) as (_ & C & F & _). unfold averaged. apply groups_increase.
  - rewrite C. rewrite <- (firstn_skipn (length l - (if length l mod w =? 0 then 0 else w))%nat l) in S. apply ss_app in S. tauto.
  - eapply Forall_impl; [|exact F]. cbn. intros; lia.
Qed.
Lemma averaged_length : forall w l, (0 < w)%nat -> (w <= length l)%nat -> length (averaged w l) = (length l / w)%nat.
Proof. intros w l W L. unfold averaged. rewrite rev_length, map_length. apply (grouping_spec w l W L). Qed.
Lemma increasing_steps : forall pts, increasing pts -> Forall (fun s => 0 < snd s) (steps pts).
Proof.
  induction pts as [|p [|q r] IH]; intros H; try constructor.
  - inversion H as [|? ? H1 H2]; subst. inversion H2; subst. cbn. lra.
  - inversion H; subst. apply IH. auto.
Qed.

(** ** The diagnostics as a function of the events of each marker *)
Definition records (c : par) (e : ev) (l : list pt) : Prop :=
  (0 < e_id e)%Z /\ e_ti e < e_tf e /\ match l with [] => True | p :: _ => q_time p + p_interval c < e_tf e end /\
  passes (e_thf e) (e_thi e) /\ ~ multiple (e_thi e).
Definition point (c : par) (e : ev) : pt :=
  Pt (if p_recordrho c then e_rho e else e_r e) (e_tf e) (if Rlt_dec (e_b e) 0 then false else true).
Definition ended (e : ev) : Prop := (0 < e_id e /\ e_running e <= 0)%Z.
Inductive log_step (c : par) (e : ev) (l : list pt) : list pt -> Prop :=
| log_yes : records c e l -> log_step c e l (point c e :: l)
| log_no : ~ records c e l -> log_step c e l l.
Definition result (c : par) (id : Z) (l : list pt) (old : option (Z * R * R)) : option (Z * R * R) :=
  let w := Z.to_nat (p_navg c) in
  if (w <? length (majority l))%nat
  then Some (id, drift (averaged w (majority l)), diffusion (averaged w (majority l))) else old.
(** a log of points and a result for every marker index *)
Definition view := (nat -> list pt * option (Z * R * R))%type.
Definition spec_step (c : par) (v : view) (e : ev) (v' : view) : Prop :=
  (exists l, log_step c e (fst (v (e_index e))) l /\
     (ended e -> v' (e_index e) = ([], result c (e_id e) l (snd (v (e_index e))))) /\
     (~ ended e -> v' (e_index e) = (l, snd (v (e_index e))))) /\
  (forall i, i <> e_index e -> v' i = v i).
Inductive spec_run (c : par) (v : view) : list ev -> view -> Prop :=
| spec_nil : spec_run c v [] v
| spec_cons : forall e es v1 v2, spec_step c v e v1 -> spec_run c v1 es v2 -> spec_run c v (e :: es) v2.
Definition start : view := fun _ => ([], None).

(** the state holds exactly the logs: chains are disjoint, acyclic and cover the live heap *)
Definition addrs (ks : list (nat * link)) : list nat := map fst ks.
Record represents (s : tc) (v : view) (cs : nat -> list (nat * link)) : Prop := Rep {
  rep_chain : forall i, chain (heap s) (dp s i) (cs i);
  rep_log : forall i, map pt_of (cs i) = fst (v i);
  rep_sign : forall i, Forall signed (cs i);
  rep_time : forall i, newest_first (fst (v i));
  rep_nodup : forall i, NoDup (addrs (cs i));
  rep_disj : forall i j a, In a (addrs (cs i)) -> In a (addrs (cs j)) -> i = j;
  rep_live : forall a, heap s a <> None -> exists i, In a (addrs (cs i));
  rep_fresh : forall a, heap s a <> None -> (a < fresh s)%nat;
  rep_out : forall i, match snd (v i) with
                      | None => o_id s i = (-1)%Z /\ o_K s i = None /\ o_D s i = None
                      | Some (id, K, D) => o_id s i = id /\ o_K s i = Some K /\ o_D s i = Some D
                      end }.

Lemma chain_ext : forall h h' l ks, chain h l ks -> (forall a, In a (addrs ks) -> h' a = h a) -> chain h' l ks.
Proof.
  intros h h' l ks C. induction C; intros E; [constructor|]. constructor.
  - rewrite E; auto. left; reflexivity.
  - apply IHC. intros b B. apply E. right. auto.
Qed.
Lemma chain_live : forall h l ks a, chain h l ks -> In a (addrs ks) -> h a <> None.
Proof.
  intros h l ks a C. induction C; intros I; [contradiction|]. destruct I as [I|I]; [cbn in I; subst; congruence|auto].
Qed.

Lemma clean_spec : forall ks fuel h l, chain h l ks -> NoDup (addrs ks) -> (length ks <= fuel)%nat ->
  exists h', clean fuel h l = Some h' /\ (forall a, In a (addrs ks) -> h' a = None) /\ (forall a, ~ In a (addrs ks) -> h' a = h a).
Proof.
  induction ks as [|[a k] ks IH]; intros fuel h l C N F; inversion C; subst.
  - exists h. destruct fuel; (split; [reflexivity|split; [intros a []|auto]]).
  - destruct fuel; [cbn in F; lia|]. cbn [clean]. rewrite H2. cbn in N. inversion N; subst.
    assert (CX : chain (upd h a None) (l_prev k) ks).
    { eapply chain_ext; eauto. intros b Bi. unfold upd. destruct (Nat.eqb_spec b a); [subst; contradiction|reflexivity]. }
    assert (FX : (length ks <= fuel)%nat) by (cbn in F; lia).
    destruct (IH fuel (upd h a None) (l_prev k) CX ltac:(assumption) FX) as (h' & A & B & D).
    exists h'. split; auto. cbn. split.
    + intros b [E|E]; auto. subst. destruct (in_dec Nat.eq_dec b (addrs ks)); auto. rewrite D by auto. unfold upd. rewrite Nat.eqb_refl. reflexivity.
    + intros b E. rewrite D by tauto. unfold upd. destruct (Nat.eqb_spec b a); [subst; tauto|reflexivity].
Qed.

Lemma sel_1 : forall ks, sel 1 ks = codir (map pt_of ks). Proof. reflexivity. Qed.
Lemma sel_m1 : forall ks, sel (-1) ks = counter (map pt_of ks). Proof. reflexivity. Qed.
Lemma majority_sorted : forall l, newest_first l -> newest_first (majority l).
Proof. intros l H. unfold majority. destruct (_ <=? _)%nat; apply ss_filter; auto. Qed.

Lemma upd_same : forall A (f : nat -> A) i x, upd f i x i = x.
Proof. intros. unfold upd. rewrite Nat.eqb_refl. reflexivity. Qed.
Lemma upd_other : forall A (f : nat -> A) i x j, j <> i -> upd f i x j = f j.
Proof. intros. unfold upd. destruct (Nat.eqb_spec j i); [contradiction|reflexivity]. Qed.

Lemma process_spec : forall fuel c s v cs i id, represents s v cs -> (0 < p_navg c)%Z -> (length (cs i) <= fuel)%nat ->
  exists s', process fuel c s i id = Some s' /\
    represents s' (upd v i ([], result c id (fst (v i)) (snd (v i)))) (upd cs i []).
Proof.
  intros fuel c s v cs i id H P F. pose proof (rep_chain _ _ _ H i) as C. pose proof (rep_sign _ _ _ H i) as SG.
  unfold process. rewrite (count_spec (cs i)) by auto. rewrite !Z.add_0_l. rewrite (rep_log _ _ _ H i).
  set (l := fst (v i)) in *.
  destruct (clean_spec (cs i) fuel (heap s) (dp s i) C (rep_nodup _ _ _ H i) F) as (h' & CL & CN & CO). rewrite CL.
  assert (R : forall oi ok od r, (forall j, j <> i -> oi j = o_id s j /\ ok j = o_K s j /\ od j = o_D s j) ->
     match r with None => oi i = (-1)%Z /\ ok i = None /\ od i = None | Some (a, b, d) => oi i = a /\ ok i = Some b /\ od i = Some d end ->
     represents (Tc h' (fresh s) (upd (dp s) i None) oi ok od) (upd v i ([], r)) (upd cs i [])).
  { intros oi ok od r O Oi. constructor; cbn [heap dp o_id o_K o_D fresh].
    - intros j. destruct (Nat.eq_dec j i) as [E|E]; [subst; rewrite !upd_same; constructor|]. rewrite !upd_other by auto.
      eapply chain_ext; [apply (rep_chain _ _ _ H)|]. intros a A. apply CO. intros B. apply E. eapply (rep_disj _ _ _ H); eauto.
    - intros j. destruct (Nat.eq_dec j i) as [E|E]; [subst; rewrite !upd_same; reflexivity|]. rewrite !upd_other by auto. apply (rep_log _ _ _ H).
    - intros j. destruct (Nat.eq_dec j i) as [E|E]; [subst; rewrite !upd_same; constructor|]. rewrite !upd_other by auto. apply (rep_sign _ _ _ H).
    - intros j. destruct (Nat.eq_dec j i) as [E|E]; [subst; rewrite !upd_same; constructor|]. rewrite !upd_other by auto. apply (rep_time _ _ _ H).
    - intros j. destruct (Nat.eq_dec j i) as [E|E]; [subst; rewrite !upd_same; constructor|]. rewrite !upd_other by auto. apply (rep_nodup _ _ _ H).
    - intros j k a A B. destruct (Nat.eq_dec j i) as [E|E]; [subst; rewrite upd_same in A; contradiction|].
      destruct (Nat.eq_dec k i) as [E2|E2]; [subst; rewrite upd_same in B; contradiction|]. rewrite !upd_other in * by auto. eapply (rep_disj _ _ _ H); eauto.
    - intros a A. destruct (in_dec Nat.eq_dec a (addrs (cs i))) as [I|I]; [rewrite CN in A; auto; congruence|]. rewrite CO in A by auto.
      destruct (rep_live _ _ _ H a A) as [j J]. exists j. rewrite upd_other; auto. intros E. subst. contradiction.
    - intros a A. apply (rep_fresh _ _ _ H). intros B. apply A. destruct (in_dec Nat.eq_dec a (addrs (cs i))); [auto|rewrite CO; auto].
    - intros j. destruct (Nat.eq_dec j i) as [E|E]; [subst; rewrite !upd_same; exact Oi|]. rewrite upd_other by auto.
      destruct (O j E) as (-> & -> & ->). apply (rep_out _ _ _ H). }
  assert (M : exists sg, (sg = 1 \/ sg = -1)%Z /\ sel sg (cs i) = majority l /\
      (if (Z.of_nat (length (codir l)) >=? Z.of_nat (length (counter l)))%Z then (Z.of_nat (length (codir l)), 1%Z) else (Z.of_nat (length (counter l)), (-1)%Z))
       = (Z.of_nat (length (majority l)), sg)).
  { unfold majority. rewrite Z.geb_leb. destruct (Nat.leb_spec (length (counter l)) (length (codir l))), (Z.leb_spec (Z.of_nat (length (counter l))) (Z.of_nat (length (codir l)))); try lia.
    - exists 1%Z. rewrite sel_1, (rep_log _ _ _ H i). auto.
    - exists (-1)%Z. rewrite sel_m1, (rep_log _ _ _ H i). auto. }
  destruct M as (sg & SG1 & SE & ME). rewrite ME. unfold result. set (m := majority l) in *. set (w := Z.to_nat (p_navg c)).
  rewrite Z.gtb_ltb. destruct (Z.ltb_spec (p_navg c) (Z.of_nat (length m))) as [L|L].
  - destruct (Nat.ltb_spec w (length m)) as [LW|LW]; [|unfold w in LW; lia].
    pose proof (averages_spec (cs i) fuel (heap s) (dp s i) sg (p_navg c) C SG SG1 F P) as A. rewrite SE in A. rewrite A by auto. fold w.
    assert (W : (0 < w)%nat) by (unfold w; lia).
    assert (I : increasing (averaged w m)). { apply averaged_increase; auto; [lia|]. apply majority_sorted. apply (rep_time _ _ _ H). }
    rewrite coefs_spec.
    + eexists. split; [reflexivity|]. apply R; [intros j J; rewrite !upd_other; auto|]. rewrite !upd_same. auto.
    + intros E. apply (f_equal (@length _)) in E. rewrite averaged_length in E by lia. cbn in E. assert (1 <= length m / w)%nat by (apply Nat.div_le_lower_bound; lia). lia.
    + eapply Forall_impl; [|apply increasing_steps; exact I]. cbn. intros; lra.
  - destruct (Nat.ltb_spec w (length m)) as [LW|LW]; [unfold w in LW; lia|].
    eexists. split; [reflexivity|]. apply R; [auto|]. apply (rep_out _ _ _ H i).
Qed.

Lemma represents_ext : forall s v v' cs cs', represents s v cs -> (forall j, v' j = v j) -> (forall j, cs' j = cs j) -> represents s v' cs'.
Proof.
  intros s v v' cs cs' [] E F. constructor; auto.
  - intros i. rewrite F. auto. - intros i. rewrite E, F. auto. - intros i. rewrite F. auto. - intros i. rewrite E. auto. - intros i. rewrite F. auto.
  - intros i j a. rewrite !F. apply rep_disj0. - intros a A. destruct (rep_live0 a A) as [i I]. exists i. rewrite F. auto.
  - intros i. rewrite E. apply rep_out0.
Qed.
Lemma pitchsign_cases : forall b, (pitchsign b = 1 \/ pitchsign b = -1)%Z /\ (0 <? pitchsign b)%Z = (if Rlt_dec b 0 then false else true).
Proof. intros b. unfold pitchsign. destruct (Rlt_dec b 0); auto. Qed.

Lemma record_spec : forall c s v cs e, represents s v cs -> 0 <= p_interval c ->
  exists s' l cs', record c s (e_index e) (e_id e) (e_rho e) (e_r e) (pitchsign (e_b e)) (e_tf e) (e_ti e) (e_thf e) (e_thi e) = Some s' /\
    log_step c e (fst (v (e_index e))) l /\ represents s' (upd v (e_index e) (l, snd (v (e_index e)))) cs' /\
    (forall j, (length (cs' j) <= S (length (cs j)))%nat).
Proof.
  intros c s v cs e H IV. set (i := e_index e).
  pose proof (rep_chain _ _ _ H i) as C. pose proof (rep_log _ _ _ H i) as L.
  assert (NO : ~ records c e (fst (v i)) -> exists s' l cs', Some s = Some s' /\ log_step c e (fst (v i)) l /\ represents s' (upd v i (l, snd (v i))) cs' /\ (forall j, (length (cs' j) <= S (length (cs j)))%nat)).
  { intros N. exists s, (fst (v i)), cs. split; [reflexivity|]. split; [apply log_no; auto|]. split; [|intros; lia].
    assert (E : forall j, upd v i (fst (v i), snd (v i)) j = v j). { intros j. unfold upd. destruct (Nat.eqb_spec j i); auto. subst. destruct (v i); reflexivity. }
    eapply represents_ext; [exact H|exact E|reflexivity]. }
  unfold record. rewrite Z.gtb_ltb. destruct (Z.ltb_spec 0 (e_id e)) as [ID|ID]; [|apply NO; unfold records; lia].
  cbv zeta. set (rec := if Rlt_dec (e_ti e) (e_tf e) then _ else _).
  assert (REC : exists x, rec = Some x /\ (0 < x <-> records c e (fst (v i)))).
  { unfold rec, records. destruct (Rlt_dec (e_ti e) (e_tf e)) as [T|T]; [|exists 0; split; auto; split; [lra|tauto]].
    rewrite <- L. destruct (cs i) as [|[a k] ks] eqn:EC; inversion C; subst.
    - exists (crossing (e_thf e) (e_thi e)). split; auto. rewrite crossing_iff. cbn. tauto.
    - rewrite H3. cbn [map pt_of q_time snd]. destruct (Rlt_dec (p_interval c) (e_tf e - l_time k)).
      + exists (crossing (e_thf e) (e_thi e)). split; auto. rewrite crossing_iff. split; [intros Q; repeat split; try tauto; lra|tauto].
      + exists 0. split; auto. split; [lra|]. intros (_ & _ & Q & _). lra. }
  destruct REC as (x & RE & X). rewrite RE. destruct (Rlt_dec 0 x) as [Y|Y]; [|apply NO; tauto]. apply X in Y. clear X NO RE rec x.
  set (lk := Link _ _ _ _). exists (Tc (upd (heap s) (fresh s) (Some lk)) (S (fresh s)) (upd (dp s) i (Some (fresh s))) (o_id s) (o_K s) (o_D s)).
  exists (point c e :: fst (v i)), (upd cs i ((fresh s, lk) :: cs i)).
  assert (FR : forall j, ~ In (fresh s) (addrs (cs j))). { intros j I. pose proof (chain_live _ _ _ _ (rep_chain _ _ _ H j) I) as A. apply (rep_fresh _ _ _ H) in A. lia. }
  assert (CX : forall j, chain (upd (heap s) (fresh s) (Some lk)) (dp s j) (cs j)).
  { intros j. eapply chain_ext; [apply (rep_chain _ _ _ H)|]. intros a A. apply upd_other. intros E. subst. eapply FR; eauto. }
  split; [reflexivity|]. split; [apply log_yes; auto|]. split.
  2:{ intros j. destruct (Nat.eq_dec j i) as [E|E]; [subst; rewrite upd_same; cbn; lia|rewrite upd_other by auto; lia]. }
  constructor; cbn [heap dp o_id o_K o_D fresh].
  - intros j. destruct (Nat.eq_dec j i) as [E|E]; [subst j; rewrite !upd_same|rewrite !upd_other by auto; apply CX].
    constructor; [apply upd_same|]. assert (LP : l_prev lk = dp s i) by (unfold lk; cbn [l_prev]; destruct (dp s i); auto). rewrite LP. apply CX.
  - intros j. destruct (Nat.eq_dec j i) as [E|E]; [subst j; rewrite !upd_same|rewrite !upd_other by auto; apply (rep_log _ _ _ H)].
    cbn [map fst]. rewrite L. f_equal. unfold pt_of, lk, point. cbn [snd l_rho l_time l_sign]. f_equal. apply pitchsign_cases.
  - intros j. destruct (Nat.eq_dec j i) as [E|E]; [subst j; rewrite !upd_same|rewrite !upd_other by auto; apply (rep_sign _ _ _ H)].
    constructor; [|apply (rep_sign _ _ _ H)]. unfold signed, lk. cbn. apply pitchsign_cases.
  - intros j. destruct (Nat.eq_dec j i) as [E|E]; [subst j; rewrite !upd_same|rewrite !upd_other by auto; apply (rep_time _ _ _ H)].
    cbn [fst]. pose proof (rep_time _ _ _ H i) as NT. constructor; auto. destruct Y as (_ & _ & Y & _). cbn [point q_time].
    destruct (fst (v i)) as [|p r]; [constructor|]. inversion NT as [|? ? N1 N2]; subst. constructor; [lra|].
    eapply Forall_impl; [|exact N2]. cbn. intros; lra.
  - intros j. destruct (Nat.eq_dec j i) as [E|E]; [subst j; rewrite !upd_same|rewrite !upd_other by auto; apply (rep_nodup _ _ _ H)].
    cbn. constructor; [apply FR|apply (rep_nodup _ _ _ H)].
  - intros j k a A B.
    assert (Q : forall j, In a (addrs (upd cs i ((fresh s, lk) :: cs i) j)) -> (j = i /\ a = fresh s) \/ (In a (addrs (cs j)) /\ a <> fresh s)).
    { intros j' Q. destruct (Nat.eq_dec j' i) as [E|E]; [subst j'; rewrite upd_same in Q|rewrite upd_other in Q by auto].
      - cbn in Q. destruct Q as [Q|Q]; [left; auto|right; split; auto; intros Z; subst; eapply FR; eauto].
      - right. split; auto. intros Z; subst; eapply FR; eauto. }
    destruct (Q j A) as [[A1 A2]|[A1 A2]], (Q k B) as [[B1 B2]|[B1 B2]]; subst; try contradiction; auto. eapply (rep_disj _ _ _ H); eauto.
  - intros a A. destruct (Nat.eq_dec a (fresh s)) as [E|E].
    + exists i. rewrite upd_same. left. auto.
    + rewrite upd_other in A by auto. destruct (rep_live _ _ _ H a A) as [j J]. exists j.
      destruct (Nat.eq_dec j i) as [E2|E2]; [subst j; rewrite upd_same; right; auto|rewrite upd_other by auto; auto].
  - intros a A. destruct (Nat.eq_dec a (fresh s)) as [E|E]; [lia|]. rewrite upd_other in A by auto. apply (rep_fresh _ _ _ H) in A. lia.
  - intros j. destruct (Nat.eq_dec j i) as [E|E]; [subst j; rewrite !upd_same|rewrite !upd_other by auto]; apply (rep_out _ _ _ H).
Qed.

Lemma ended_dec : forall e, ((e_id e <? 1) || (e_running e >? 0))%Z = true <-> ~ ended e.
Proof. intros e. unfold ended. rewrite orb_true_iff, Z.ltb_lt, Z.gtb_lt. lia. Qed.

Lemma upd_upd : forall A (f : nat -> A) i x y j, upd (upd f i x) i y j = upd f i y j.
Proof. intros. unfold upd. destruct (Nat.eqb j i); reflexivity. Qed.
Lemma update_spec : forall fuel c s v cs e, represents s v cs -> (0 < p_navg c)%Z -> 0 <= p_interval c ->
  (forall i, S (length (cs i)) <= fuel)%nat ->
  exists s' v' cs', update fuel c s e = Some s' /\ spec_step c v e v' /\ represents s' v' cs' /\
    (forall j, (length (cs' j) <= S (length (cs j)))%nat).
Proof.
  intros fuel c s v cs e H P IV F. set (i := e_index e).
  destruct (record_spec c s v cs e H IV) as (s1 & l & cs1 & R & LS & R1 & LEN). unfold update. rewrite R. fold i in LS, R1.
  destruct ((e_id e <? 1) || (e_running e >? 0))%Z eqn:EN.
  - exists s1, (upd v i (l, snd (v i))), cs1. split; [reflexivity|]. split; [|auto]. apply ended_dec in EN. split.
    + exists l. fold i. rewrite upd_same. split; auto. split; [intros; contradiction|auto].
    + intros j J. apply upd_other. auto.
  - assert (EN' : ended e). { destruct (Z_lt_dec 0 (e_id e)), (Z_le_dec (e_running e) 0); try (split; auto; fail); exfalso; apply not_true_iff_false in EN; apply EN; apply ended_dec; unfold ended; lia. }
    destruct (process_spec fuel c s1 _ cs1 i (e_id e) R1 P) as (s2 & A & B). { specialize (LEN i). specialize (F i). lia. }
    fold i. rewrite A. rewrite upd_same in B. cbn [fst snd] in B.
    exists s2, (upd v i ([], result c (e_id e) l (snd (v i)))), (upd cs1 i []). split; [reflexivity|]. split; [|split].
    + split; [|intros j J; apply upd_other; auto]. exists l. fold i. rewrite upd_same. split; auto. split; [auto|intros; contradiction].
    + eapply represents_ext; [exact B| |reflexivity]. intros j. rewrite upd_upd. reflexivity.
    + intros j. destruct (Nat.eq_dec j i) as [E|E]; [subst j; rewrite upd_same; cbn; lia|rewrite upd_other by auto; auto].
Qed.

Lemma run_spec_gen : forall es fuel c s v cs n, represents s v cs -> (0 < p_navg c)%Z -> 0 <= p_interval c ->
  (forall i, length (cs i) <= n)%nat -> (n + length es <= fuel)%nat ->
  exists s' v' cs', run fuel c s es = Some s' /\ spec_run c v es v' /\ represents s' v' cs'.
Proof.
  induction es as [|e es IH]; intros fuel c s v cs n H P IV L F.
  - exists s, v, cs. split; [reflexivity|]. split; [constructor|auto].
  - cbn [length] in F. destruct (update_spec fuel c s v cs e H P IV) as (s1 & v1 & cs1 & A & B & C & D). { intros i. specialize (L i). lia. }
    destruct (IH fuel c s1 v1 cs1 (S n)) as (s2 & v2 & cs2 & A2 & B2 & C2); auto.
    { intros i. specialize (L i). specialize (D i). lia. } { lia. }
    exists s2, v2, cs2. cbn [run]. rewrite A. split; auto. split; auto. econstructor; eauto.
Qed.
Lemma init_rep : represents tc_init start (fun _ => []).
Proof. constructor; cbn; intros; try constructor; auto; try contradiction; try congruence. Qed.

(** every run is free of undefined behaviour and computes the specified logs and results *)
Lemma run_spec : forall c es fuel, (0 < p_navg c)%Z -> 0 <= p_interval c -> (length es <= fuel)%nat ->
  exists s v cs, run fuel c tc_init es = Some s /\ spec_run c start es v /\ represents s v cs.
Proof. intros c es fuel P IV F. apply (run_spec_gen es fuel c tc_init start (fun _ => []) 0); auto. apply init_rep. Qed.

(** ** Determinism and independence of markers *)
Lemma log_step_fun : forall c e l a b, log_step c e l a -> log_step c e l b -> a = b.
Proof. intros c e l a b A B. destruct A, B; auto; contradiction. Qed.
Lemma ended_or : forall e, ended e \/ ~ ended e. Proof. intros e. unfold ended. lia. Qed.
Lemma local_step : forall c v u e v' u', spec_step c v e v' -> spec_step c u e u' -> forall i, v i = u i -> v' i = u' i.
Proof.
  intros c v u e v' u' [(l & L & A1 & A2) A3] [(m & M & B1 & B2) B3] i E. destruct (Nat.eq_dec i (e_index e)) as [X|X].
  - subst i. rewrite E in *. pose proof (log_step_fun _ _ _ _ _ L M). subst m.
    destruct (ended_or e) as [N|N]; [rewrite A1, B1 by auto|rewrite A2, B2 by auto]; reflexivity.
  - rewrite A3, B3 by auto. auto.
Qed.
Lemma markers_independent : forall c es i v u v' u', spec_run c v es v' ->
  spec_run c u (filter (fun e => Nat.eqb (e_index e) i) es) u' -> v i = u i -> v' i = u' i.
Proof.
  induction es as [|e es IH]; intros i v u v' u' A B E; cbn in B.
  - inversion A; inversion B; subst. auto.
  - inversion A; subst. destruct (Nat.eqb_spec (e_index e) i) as [X|X].
    + inversion B; subst. eapply IH; eauto. eapply local_step; eauto.
    + eapply IH; eauto. match goal with S : spec_step c v e _ |- _ => destruct S as [_ Q] end. rewrite Q by auto. auto.
Qed.

(** the last event of a marker *)
Fixpoint last_of (i : nat) (es : list ev) : option ev :=
  match es with
  | [] => None
  | e :: es => match last_of i es with Some x => Some x | None => if Nat.eqb (e_index e) i then Some e else None end
  end.
Lemma last_log : forall c es v v' i, spec_run c v es v' ->
  match last_of i es with None => v' i = v i | Some e => ended e -> fst (v' i) = [] end.
Proof.
  induction es as [|e es IH]; intros v v' i A; inversion A as [|? ? v1 ? S1 S2]; subst; [reflexivity|]. cbn. specialize (IH v1 v' i S2).
  destruct (last_of i es); auto. rewrite IH. destruct S1 as [(l & L & E1 & E2) Q]. destruct (Nat.eqb_spec (e_index e) i) as [X|X].
  - subst i. intros N. rewrite E1 by auto. reflexivity.
  - apply Q. auto.
Qed.
(** when every marker has ended, every record has been freed *)
Lemma no_leak : forall c es fuel s, (0 < p_navg c)%Z -> 0 <= p_interval c -> (length es <= fuel)%nat ->
  run fuel c tc_init es = Some s -> (forall i e, last_of i es = Some e -> ended e) ->
  (forall a, heap s a = None) /\ (forall i, dp s i = None).
Proof.
  intros c es fuel s P IV F R E. destruct (run_spec c es fuel P IV F) as (s' & v & cs & R' & S & H). rewrite R in R'. injection R' as <-.
  assert (Z : forall i, cs i = []).
  { intros i. assert (fst (v i) = []). { pose proof (last_log c es start v i S) as Q. destruct (last_of i es) eqn:L; [apply Q; eapply E; eauto|rewrite Q; reflexivity]. }
    rewrite <- (rep_log _ _ _ H i) in H0. apply map_eq_nil in H0. auto. }
  split.
  - intros a. destruct (heap s a) eqn:A; auto. exfalso. destruct (rep_live _ _ _ H a) as [i I]; [congruence|]. rewrite Z in I. contradiction.
  - intros i. pose proof (rep_chain _ _ _ H i) as C. rewrite Z in C. inversion C. auto.
Qed.

(** ** What the coefficients are *)
Definition on_line (a v : R) (p : R * R) : Prop := fst p = a + v * snd p.
Lemma line_slopes : forall pts a v, Forall (on_line a v) pts -> Forall (fun s => fst s = v * snd s) (steps pts).
Proof.
  induction pts as [|p [|q r] IH]; intros a v F; try constructor.
  - inversion F as [|? ? F1 F2]; subst. inversion F2; subst. unfold on_line in *. cbn. lra.
  - inversion F; subst. eapply IH; eauto.
Qed.
Lemma steps_length : forall pts, length (steps pts) = (length pts - 1)%nat.
Proof. induction pts as [|p [|q r] IH]; auto. rewrite steps_cons. cbn [length] in *. lia. Qed.
Lemma steps_span : forall pts p, pts <> [] -> sumR (map snd (steps pts)) = snd (last pts p) - snd (hd p pts).
Proof.
  induction pts as [|p [|q r] IH]; intros d N; [congruence|cbn; lra|]. rewrite steps_cons. cbn [map sumR fold_right].
  change (fold_right Rplus 0 (map snd (steps (q :: r)))) with (sumR (map snd (steps (q :: r)))). rewrite (IH d) by discriminate. cbn [hd snd].
  change (last (p :: q :: r) d) with (last (q :: r) d). lra.
Qed.
Lemma sum_const : forall (A : Type) (f : A -> R) c l, (forall x, In x l -> f x = c) -> sumR (map f l) = c * INR (length l).
Proof.
  induction l as [|x l IH]; intros H; [cbn; lra|]. cbn [map]. change (sumR (f x :: map f l)) with (f x + sumR (map f l)). rewrite IH by (intros; apply H; right; auto).
  rewrite H by (left; auto). cbn [length]. rewrite S_INR. lra.
Qed.
Lemma sum_scale : forall (A : Type) (f g : A -> R) c l, (forall x, In x l -> f x = c * g x) -> sumR (map f l) = c * sumR (map g l).
Proof.
  induction l as [|x l IH]; intros H; [cbn; lra|]. cbn [map]. change (sumR (f x :: map f l)) with (f x + sumR (map f l)). change (sumR (g x :: map g l)) with (g x + sumR (map g l)).
  rewrite IH by (intros; apply H; right; auto). rewrite H by (left; auto). lra.
Qed.

(** a marker that drifts at the constant rate v: the drift comes out smaller by one in n, and the diffusion is not zero *)
Lemma line_coefs : forall pts a v p, pts <> [] -> increasing pts -> Forall (on_line a v) pts ->
  let n := INR (length pts) in
  drift pts = v * (n - 1) / n /\ diffusion pts = v ^ 2 * (snd (last pts p) - snd (hd p pts)) / (2 * n ^ 3).
Proof.
  intros pts a v p N I F n. assert (n <> 0). { apply not_0_INR. destruct pts; [congruence|discriminate]. }
  pose proof (line_slopes _ _ _ F) as L. pose proof (increasing_steps _ I) as S. rewrite Forall_forall in L, S.
  assert (D : drift pts = v * (n - 1) / n).
  { unfold drift. rewrite (sum_const _ _ v).
    - rewrite steps_length, minus_INR. fold n. cbn [INR]. unfold Rdiv. reflexivity. destruct pts; [congruence|cbn; lia].
    - intros x X. rewrite L by auto. specialize (S x X). field. lra. }
  split; auto. unfold diffusion. rewrite (sum_scale _ _ snd (v ^ 2 / (2 * n ^ 2))).
  - rewrite (steps_span pts p) by auto. fold n. field. auto.
  - intros x X. rewrite L, D by auto. specialize (S x X). field. split; auto. lra.
Qed.
Lemma mean_line : forall a v l, l <> [] -> (forall p, In p l -> q_rho p = a + v * q_time p) -> on_line a v (avg l).
Proof.
  intros a v l N H. unfold on_line, avg, mean. cbn [fst snd].
  assert (T : total q_rho l = a * INR (length l) + v * total q_time l).
  { clear N. induction l as [|p l IH]; [cbn; lra|]. rewrite !total_cons, IH by (intros; apply H; right; auto). rewrite H by (left; auto). cbn [length]. rewrite S_INR. lra. }
  rewrite T. field. apply not_0_INR. destruct l; [congruence|discriminate].
Qed.
Lemma averaged_line : forall w l a v, (0 < w)%nat -> (w <= length l)%nat -> (forall p, In p l -> q_rho p = a + v * q_time p) ->
  Forall (on_line a v) (averaged w l).
Proof.
  intros w l a v W L H. destruct (grouping_spec w l W L) as (_ & C & F & _). unfold averaged. apply Forall_rev, Forall_map. rewrite Forall_forall in *.
  intros g G. apply mean_line.
  - specialize (F g G). destruct g; [cbn in F; lia|discriminate].
  - intros p Pi. apply H. assert (In p (concat (grouping w l))) by (apply in_concat; eauto). rewrite C in H0.
    set (k := (length l - _)%nat) in H0. rewrite <- (firstn_skipn k l). apply in_or_app. left. exact H0.
Qed.
Lemma constant_drift : forall w l a v, (0 < w)%nat -> (w <= length l)%nat -> newest_first l ->
  (forall p, In p l -> q_rho p = a + v * q_time p) ->
  let n := INR (length l / w) in
  drift (averaged w l) = v * (n - 1) / n /\
  (v <> 0 -> (2 * w <= length l)%nat -> Rabs (drift (averaged w l)) < Rabs v /\ 0 < diffusion (averaged w l)).
Proof.
  intros w l a v W L S H n. pose proof (averaged_length w l W L) as EL. pose proof (averaged_increase w l W L S) as I.
  assert (NE : averaged w l <> []). { intros E. rewrite E in EL. cbn in EL. assert (1 <= length l / w)%nat by (apply Nat.div_le_lower_bound; lia). lia. }
  destruct (line_coefs (averaged w l) a v (0, 0) NE I (averaged_line w l a v W L H)) as [A B]. rewrite EL in A, B. fold n in A, B.
  split; auto. intros V L2. assert (2 <= length l / w)%nat by (apply Nat.div_le_lower_bound; lia). assert (N : 2 <= n) by (apply (le_INR 2); auto).
  split.
  - rewrite A. replace (v * (n - 1) / n) with (v * ((n - 1) / n)) by (field; lra). rewrite Rabs_mult.
    assert (Q : (n - 1) / n < 1). { apply Rmult_lt_reg_r with n; [lra|]. unfold Rdiv. rewrite Rmult_assoc, Rinv_l by lra. lra. }
    assert (Q0 : 0 <= (n - 1) / n). { apply Rmult_le_pos; [lra|]. left. apply Rinv_0_lt_compat. lra. }
    rewrite (Rabs_pos_eq ((n - 1) / n)) by auto. pose proof (Rabs_pos_lt v V). nra.
  - rewrite B. assert (T : 0 < snd (last (averaged w l) (0, 0)) - snd (hd (0, 0) (averaged w l))).
    { rewrite <- (steps_span (averaged w l) (0, 0)) by auto. assert (G : forall ss : list (R * R), ss <> [] -> Forall (fun s => 0 < snd s) ss -> 0 < sumR (map snd ss)).
      { induction ss as [|x [|y r] IH]; intros Nn Fs; [congruence|inversion Fs; cbn; lra|]. inversion Fs as [|? ? F1 F2]; subst. change (sumR (map snd (x :: y :: r))) with (snd x + sumR (map snd (y :: r))). cbv beta in F1.
        assert (0 < sumR (map snd (y :: r))) by (apply IH; [discriminate|auto]). lra. }
      apply G; [|apply increasing_steps; auto]. intros E. apply (f_equal (@length _)) in E. rewrite steps_length, EL in E. cbn in E. lia. }
    apply Rmult_lt_0_compat; [apply Rmult_lt_0_compat; auto|].
    + rewrite <- Rsqr_pow2. apply Rsqr_pos_lt. auto.
    + apply Rinv_0_lt_compat. assert (0 < n ^ 3) by (apply pow_lt; lra). lra.
Qed.
(** fewer than two windows of points: both coefficients are stored as zero *)
Lemma one_group : forall w l, (0 < w)%nat -> (w <= length l < 2 * w)%nat -> drift (averaged w l) = 0 /\ diffusion (averaged w l) = 0.
Proof.
  intros w l W L. pose proof (averaged_length w l W ltac:(lia)) as E.
  assert (length l / w = 1)%nat. { assert (1 <= length l / w)%nat by (apply Nat.div_le_lower_bound; lia). assert (length l / w < 2)%nat by (apply Nat.div_lt_upper_bound; lia). lia. }
  rewrite H in E. destruct (averaged w l) as [|p [|q r]]; cbn in E; try lia. unfold drift, diffusion. cbn. split; field.
Qed.
(** the diffusion coefficient is never negative, the marker for "not evaluated" *)
Lemma diffusion_nonneg : forall w l, (0 < w)%nat -> (w <= length l)%nat -> newest_first l -> 0 <= diffusion (averaged w l).
Proof.
  intros w l W L S. pose proof (increasing_steps _ (averaged_increase w l W L S)) as I. pose proof (averaged_length w l W L) as E. unfold diffusion.
  set (K := drift _). assert (1 <= length l / w)%nat by (apply Nat.div_le_lower_bound; lia).
  apply Rmult_le_pos.
  - revert I. generalize (steps (averaged w l)). induction l0 as [|x r IH]; intros F; [cbn; lra|]. inversion F; subst. cbn [map].
    change (sumR (?u :: ?t)) with (u + sumR t). apply Rplus_le_le_0_compat; auto. apply Rmult_le_pos; [apply pow2_ge_0|]. left. apply Rinv_0_lt_compat. lra.
  - left. apply Rinv_0_lt_compat. rewrite E. apply lt_0_INR. lia.
Qed.

(** a window that is negative, or zero with any data, is undefined behaviour *)
Lemma bad_window : forall fuel c s i id, (p_navg c < 0)%Z -> process fuel c s i id = None.
Proof.
  intros fuel c s i id H. unfold process.
  assert (CN : forall fuel h l p n p' n', (0 <= p -> 0 <= n -> count fuel h l p n = Some (p', n') -> 0 <= p' /\ 0 <= n')%Z).
  { induction fuel0; intros h l p n p' n' A B; (destruct l; cbn; intros E; [|injection E; intros; subst; lia]); [discriminate|].
    destruct (h n0); [|discriminate]. destruct (_ <? _)%Z; apply IHfuel0 in E; auto; lia. }
  destruct (count fuel (heap s) (dp s i) 0 0) as [[p n]|] eqn:E; auto. apply CN in E; try lia.
  assert (A : forall sg d, (0 <= d)%Z -> averages fuel (heap s) (dp s i) sg (p_navg c) d = None).
  { intros sg d D. unfold averages. destruct (Z.eqb_spec (p_navg c) 0); auto. assert (Z.quot d (p_navg c) <= 0)%Z.
    { replace (p_navg c) with (- (- p_navg c))%Z by lia. rewrite Z.quot_opp_r by lia. assert (0 <= Z.quot d (- p_navg c))%Z by (apply Z.quot_pos; lia). lia. }
    destruct (Z.ltb_spec (Z.quot d (p_navg c)) 1); [auto|lia]. }
  destruct (p >=? n)%Z; rewrite A by lia; rewrite Z.gtb_ltb.
  - destruct (Z.ltb_spec (p_navg c) p); [auto|lia]. - destruct (Z.ltb_spec (p_navg c) n); [auto|lia].
Qed.
