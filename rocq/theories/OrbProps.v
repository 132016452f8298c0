(** C21-C22: orbit history ring buffer and Poincare crossings *)
From Coq Require Import Reals ZArith List Bool Lia Lra.
From Verif Require Import MathModel MathProofs OrbModel OrbProofs.
Import ListNotations.
Local Open Scope R_scope.

(** ** C21 *)
(** After any run the section of marker m holds its most recent points: the
    k-th recorded point is in slot k mod capacity unless capacity or more
    points were recorded after it; the write position is the count mod
    capacity. *)
Theorem orb_most_recent : forall c steps, (0 < npnt c)%nat ->
  (forall s p, In s steps -> In p (snd s) -> (0 < m_id (fst p))%Z -> (0 < m_id (snd p))%Z) ->
  forall m, let L := fst (logrun c steps log0 m) in let d := run c steps orb_init in
  pnt d m = (length L mod npnt c)%nat /\
  (forall k p f v, nth_error L k = Some p -> (length L <= k + npnt c)%nat -> p f = Some v ->
     arr d f (m * npnt c + k mod npnt c)%nat = v).
Proof. exact orb_run. Qed.
Print Assumptions orb_most_recent.

(** an update of one marker leaves every other section alone *)
Theorem orb_own_section : forall c kd d pf pi s, (0 < npnt c)%nat -> ((0 < m_id pf)%Z -> (0 < m_id pi)%Z) ->
  good c d (m_index pf) s -> let d' := update c kd d [(pf, pi)] in
  (forall f i, ~ (m_index pf * npnt c <= i < m_index pf * npnt c + npnt c)%nat -> arr d' f i = arr d f i) /\
  (forall m, m <> m_index pf -> pnt d' m = pnt d m /\ recd d' m = recd d m).
Proof. exact (fun c kd d pf pi s H I G => proj2 (update1_ok c H kd d pf pi s I G)). Qed.
Print Assumptions orb_own_section.

(** nothing is written past the arrays of nmrk * npnt entries *)
Theorem orb_in_bounds : forall c steps d, (0 < npnt c)%nat ->
  (forall s p, In s steps -> In p (snd s) -> (m_index (fst p) < nmrk c)%nat) ->
  (forall m, (pnt d m < npnt c)%nat) ->
  (forall f i, (nmrk c * npnt c <= i)%nat -> arr (run c steps d) f i = arr d f i) /\
  (forall m, (pnt (run c steps d) m < npnt c)%nat).
Proof. exact run_inside. Qed.
Print Assumptions orb_in_bounds.

(** only allocated arrays are written when the marker kind fits the record mode ... *)
Theorem orb_allocated : forall m kd, fits m kd = true ->
  (forall p f, pt_state kd p f <> None -> allocated m false f = true) /\
  (forall pf pi k d j o s f, pt_cross kd pf pi k d j o s f <> None -> allocated m true f = true).
Proof. exact alloc_ok. Qed.
Print Assumptions orb_allocated.
(** ... and otherwise an unallocated one is written *)
Theorem orb_allocated_only_if : forall m kd, fits m kd = false ->
  exists f, (forall p, pt_state kd p f <> None) /\ allocated m false f = false.
Proof. exact alloc_only. Qed.
Print Assumptions orb_allocated_only_if.

(** ** C22 *)
(** detection: forward [start, end], the start excluded; backward both ends excluded *)
Theorem plane_detected : forall f i a, 0 <= a < 2 * PI -> Rabs (f - i) < 2 * PI ->
  (check_plane f i a <> 0 <->
   (exists n, i < a + 2 * PI * IZR n <= f) \/ (exists n, f < a + 2 * PI * IZR n < i)).
Proof. exact check_detect. Qed.
Print Assumptions plane_detected.

Theorem plane_located : forall f i a, 0 <= a < 2 * PI -> Rabs (f - i) <= PI -> check_plane f i a <> 0 ->
  0 < check_plane f i a <= 1 /\ exists n, i + check_plane f i a * (f - i) = a + 2 * PI * IZR n.
Proof. exact check_locate. Qed.
Print Assumptions plane_located.

(** past half a turn the fraction is measured from the wrong side *)
Theorem plane_located_refuted : forall f i a n, 0 <= a < 2 * PI -> Rabs (f - i) < 2 * PI ->
  (i < plane a n <= f \/ f < plane a n < i) -> PI < Rabs (plane a n - i) ->
  check_plane f i a = (2 * PI - Rabs (plane a n - i)) / Rabs (f - i) /\
  (i + check_plane f i a * (f - i) <> plane a n).
Proof. exact check_far. Qed.
Print Assumptions plane_located_refuted.

(** a marker moving backwards that stops a step exactly on the plane is missed
    by both steps *)
Theorem plane_missed : forall i p f a n, 0 <= a < 2 * PI -> p = plane a n -> p < i < p + 2 * PI -> p - 2 * PI < f < p ->
  check_plane p i a = 0 /\ check_plane f p a = 0.
Proof. exact check_missed. Qed.
Print Assumptions plane_missed.

(** along any forward path every plane passed is detected exactly once *)
Theorem plane_exactly_once : forall a x l, 0 <= a < 2 * PI -> forward x l ->
  detections a x l = (nplane a (last l x) - nplane a x)%Z.
Proof. exact detect_forward. Qed.
Print Assumptions plane_exactly_once.

Theorem radial_detected : forall f i r0, check_radial f i r0 <> 0 <-> (f <= r0 < i \/ i < r0 < f).
Proof. exact radial_detect. Qed.
Print Assumptions radial_detected.
Theorem radial_located : forall f i r0, check_radial f i r0 <> 0 ->
  0 < check_radial f i r0 <= 1 /\ i + check_radial f i r0 * (f - i) = r0.
Proof. exact radial_locate. Qed.
Print Assumptions radial_located.

(** the recorded coordinates are interpolated to the crossing ... *)
Theorem crossing_recorded : forall kd pf pi k j o s f, coord kd f = true -> f <> Fq ->
  pt_cross kd pf pi k (1 - k) j o s f = Some (m_val pi f + k * (m_val pf f - m_val pi f)).
Proof. exact cross_value. Qed.
Print Assumptions crossing_recorded.
(** ... except that a particle's radial crossing uses swapped weights *)
Theorem fo_radial_recorded_refuted : forall pf pi r0 j, let k := check_radial (m_val pf Frho) (m_val pi Frho) r0 in k <> 0 ->
  pt_cross FO pf pi (1 - k) k j (Some (direction (m_val pf Frho) (m_val pi Frho))) false Frho =
  Some (m_val pi Frho + m_val pf Frho - r0).
Proof. exact fo_radial_value. Qed.
Print Assumptions fo_radial_recorded_refuted.

(** ** Examples *)
(** three records in a buffer of two: the last two remain *)
Definition ex_mk (mil : R) : mk := MK 7 1 0 (fun f => match f with Fmil => mil | Fr => 10 * mil | _ => 0 end).
Definition ex_cfg : cfg := CFG 2 3 true 1 [] [] [].
Definition ex_steps : list (kind * list (mk * mk)) :=
  [(GC, [(ex_mk 1, ex_mk 0)]); (GC, [(ex_mk (3/2), ex_mk 1)]); (GC, [(ex_mk 2, ex_mk (3/2))])].
Lemma leb_t : forall x y, x <= y -> leb x y = true. Proof. intros. now apply leb_spec. Qed.
Lemma leb_f : forall x y, y < x -> leb x y = false.
Proof. intros. unfold leb. destruct (Rle_dec x y); auto. lra. Qed.
Example ex_log : map (fun p => p Fr) (fst (logrun ex_cfg ex_steps log0 1)) = [Some (10 * 0); Some (10 * 1); Some (10 * 2)].
Proof.
  cbv [ex_steps logrun log1 new_points ex_cfg ex_mk fold_left fst snd upd m_index m_id m_val m_endcond wint interval_mode Nat.eqb Z.leb Z.ltb Z.compare log0 Datatypes.orb].
  rewrite (leb_t (0 + 1) 1) by lra. cbv [extend fold_left fst snd app].
  rewrite (leb_f (1 + 1) (3/2)) by lra. cbv [extend fold_left fst snd app].
  rewrite (leb_t (1 + 1) 2) by lra. reflexivity.
Qed.
Example ex_buffer : arr (run ex_cfg ex_steps orb_init) Fr 2%nat = 20 /\ arr (run ex_cfg ex_steps orb_init) Fr 3%nat = 10.
Proof.
  destruct (orb_most_recent ex_cfg ex_steps ltac:(cbn; lia)) with (m := 1%nat) as [_ H].
  { intros s p [<-|[<-|[<-|[]]]] [<-|[]]; reflexivity. }
  pose proof ex_log as E. destruct (fst (logrun ex_cfg ex_steps log0 1)) as [|p0 [|p1 [|p2 [|]]]]; try discriminate E.
  cbn [map] in E. injection E as E0 E1 E2. split.
  - transitivity (10 * 2); [exact (H 2%nat p2 Fr (10 * 2) eq_refl ltac:(cbn; lia) E2) | ring].
  - transitivity (10 * 1); [exact (H 1%nat p1 Fr (10 * 1) eq_refl ltac:(cbn; lia) E1) | ring].
Qed.
(** crossing at a quarter of the step *)
Example ex_plane : check_plane 2 1 (5/4) = 1/4.
Proof.
  pose proof PI_RGT_0. pose proof PI2_3_2 as P2. unfold PI2 in *.
  assert (A : 0 <= 5/4 < 2 * PI) by lra.
  assert (B : Rabs (2 - 1) <= PI) by (rewrite Rabs_right; lra).
  assert (C : check_plane 2 1 (5/4) <> 0).
  { apply plane_detected; [auto | rewrite Rabs_right; lra |]. left. exists 0%Z. lra. }
  destruct (plane_located 2 1 (5/4) A B C) as [D (n & E)].
  assert (n = 0)%Z; [|subst; lra].
  assert (IZR n < 1) by nra. assert (-1 < IZR n) by nra. apply lt_IZR in H0, H1. lia.
Qed.
Example ex_plane_far : check_plane (3 * PI / 2) 0 (5 * PI / 4) = 1/2.
Proof.
  pose proof PI_RGT_0. destruct (plane_located_refuted (3 * PI / 2) 0 (5 * PI / 4) 0) as [E _]; unfold plane.
  - lra.
  - rewrite Rabs_right; lra.
  - left; lra.
  - rewrite Rabs_right; lra.
  - rewrite E. unfold plane. rewrite !Rabs_right by lra. field. lra.
Qed.
Example ex_radial : check_radial (1/2) 1 (3/4) = 1/2 /\ check_radial 1 (1/2) (1) = 0.
Proof.
  split.
  - destruct (radial_located (1/2) 1 (3/4)) as [_ E]; [apply radial_detected; lra | lra].
  - destruct (Req_dec (check_radial 1 (1/2) 1) 0) as [|H]; auto. apply radial_detected in H. lra.
Qed.
Example ex_count : detections 0 PI [2 * PI; 7 * PI / 2; 5 * PI] = 2%Z.
Proof.
  pose proof PI_RGT_0. rewrite plane_exactly_once; [| lra | cbn; lra].
  unfold nplane. cbn [last].
  assert (A : Int_part ((5 * PI - 0) / (2 * PI)) = 2%Z).
  { apply eq_IZR. apply (floor_unique ((5 * PI - 0) / (2 * PI)) 2). replace ((5 * PI - 0) / (2 * PI)) with (5/2) by (field; lra). lra. }
  assert (B : Int_part ((PI - 0) / (2 * PI)) = 0%Z).
  { apply eq_IZR. apply (floor_unique ((PI - 0) / (2 * PI)) 0). replace ((PI - 0) / (2 * PI)) with (1/2) by (field; lra). lra. }
  rewrite A, B. reflexivity.
Qed.
