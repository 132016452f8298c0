From Coq Require Import Reals ZArith List String Ascii Bool Arith Lia Lra.
Import ListNotations.
From Verif Require Import MainModel MainProofs HdfModel HdfProofs PhysModel HmkModel.
Local Open Scope string_scope.
Local Open Scope R_scope.

(** ** Specifications *)
Definition stored (f : h5) (t qid name : string) : option dset := dst f ["marker"; t ++ qid; name].
(** the i-th number of a dataset, as a real and as a 32 or 64 bit integer *)
Definition rval f t qid name i (v : R) : Prop := exists d, stored f t qid name = Some d /\ nth_error (as_reals d) i = Some v.
Definition ival f t qid name i (v : Z) : Prop := exists d k, stored f t qid name = Some d /\ nth_error (as_ints d) i = Some k /\ v = i32 k.
Definition lval f t qid name i (v : Z) : Prop := exists d k, stored f t qid name = Some d /\ nth_error (as_ints d) i = Some k /\ v = i64 k.
Definition count f t qid (n : Z) : Prop := exists d k, stored f t qid "n" = Some d /\ as_ints d = [k] /\ n = i64 k.
Definition column f t qid n name : Prop := exists d, stored f t qid name = Some d /\ dlength d = n.
Definition prt_names : list string := ["r"; "phi"; "z"; "vr"; "vphi"; "vz"; "mass"; "charge"; "anum"; "znum"; "weight"; "time"; "id"].
Definition gc_names : list string := ["r"; "phi"; "z"; "energy"; "pitch"; "zeta"; "mass"; "charge"; "anum"; "znum"; "weight"; "time"; "id"].
Definition fl_names : list string := ["r"; "phi"; "z"; "pitch"; "weight"; "time"; "id"].
(** relativistic momentum of a velocity *)
Definition momentum (m vx vy vz px py pz : R) : Prop :=
  exists g, 0 < g /\ g * g * (1 - (vx * vx + vy * vy + vz * vz) / CONST_C2) = 1 /\ px = g * m * vx /\ py = g * m * vy /\ pz = g * m * vz.
Definition slow (vx vy vz : R) : Prop := vx * vx + vy * vy + vz * vz < CONST_C2.
Definition rad (deg : R) : R := deg * (PI / 180).
Definition psq (p : prt) : R := p_pr p * p_pr p + p_pphi p * p_pphi p + p_pz p * p_pz p.

(** ** Reading *)
Lemma C2_pos : 0 < CONST_C2. Proof. unfold CONST_C2, CONST_C. lra. Qed.
Lemma E_pos : 0 < CONST_E. Proof. unfold CONST_E. lra. Qed.
Lemma U_pos : 0 < CONST_U. Proof. unfold CONST_U. lra. Qed.
Lemma bind_ok A B (o : outcome A) (k : A -> outcome B) x : bind o k = Ok x <-> exists a, o = Ok a /\ k a = Ok x.
Proof. destruct o; cbn; split; intros H; try (destruct H as (? & ? & ?)); try discriminate; eauto. congruence. Qed.
Lemma exact_ok A n (l l' : list A) : exact n l = Ok l' <-> l' = l /\ List.length l = n.
Proof.
  unfold exact. destruct (Nat.eqb_spec (List.length l) n); split; intros H; try discriminate.
  - injection H as <-. auto.
  - destruct H as [-> _]. reflexivity.
  - destruct H. congruence.
Qed.
Lemma as_reals_length d : List.length (as_reals d) = dlength d. Proof. destruct d; cbn; [reflexivity|apply map_length]. Qed.
Lemma as_ints_length d : List.length (as_ints d) = dlength d. Proof. destruct d; cbn; [apply map_length|reflexivity]. Qed.
Section at_.
Variables (f : h5) (qid : string).
Hypothesis Lq : String.length qid = 10%nat. Hypothesis Pq : plain qid.
Definition at_path (t var name : string) : Prop := lookup f var qid = stored f t qid name.
Lemma rd_double t var name n l : at_path t var name -> (read_double f var qid n = Ok l <-> exists d, stored f t qid name = Some d /\ dlength d = n /\ l = as_reals d).
Proof.
  intros A. unfold read_double. rewrite A. destruct (stored f t qid name) as [d|].
  - rewrite exact_ok, as_reals_length. split; [intros [-> E]; eauto|]. intros (d' & E & H1 & H2). injection E as <-. auto.
  - split; [discriminate|]. intros (d & E & _). discriminate.
Qed.
Lemma rd_int t var name n l : at_path t var name -> (read_int f var qid n = Ok l <-> exists d, stored f t qid name = Some d /\ dlength d = n /\ l = map i32 (as_ints d)).
Proof.
  intros A. unfold read_int. rewrite A. destruct (stored f t qid name) as [d|].
  - rewrite exact_ok, map_length, as_ints_length. split; [intros [-> E]; eauto|]. intros (d' & E & H1 & H2). injection E as <-. auto.
  - split; [discriminate|]. intros (d & E & _). discriminate.
Qed.
Lemma rd_long t var name n l : at_path t var name -> (read_long f var qid n = Ok l <-> exists d, stored f t qid name = Some d /\ dlength d = n /\ l = map i64 (as_ints d)).
Proof.
  intros A. unfold read_long. rewrite A. destruct (stored f t qid name) as [d|].
  - rewrite exact_ok, map_length, as_ints_length. split; [intros [-> E]; eauto|]. intros (d' & E & H1 & H2). injection E as <-. auto.
  - split; [discriminate|]. intros (d & E & _). discriminate.
Qed.
Lemma gr_val t name d i : stored f t qid name = Some d -> (i < dlength d)%nat -> rval f t qid name i (gr (as_reals d) i).
Proof. intros S L. exists d. split; [exact S|]. unfold gr. apply nth_error_nth'. now rewrite as_reals_length. Qed.
Lemma gz_val conv d i : (i < dlength d)%nat -> exists k, nth_error (as_ints d) i = Some k /\ gz (map conv (as_ints d)) i = conv k.
Proof.
  intros L. rewrite <- as_ints_length in L. destruct (nth_error (as_ints d) i) as [k|] eqn:E; [|apply nth_error_None in E; lia].
  exists k. split; [reflexivity|]. unfold gz. erewrite nth_error_nth; [reflexivity|]. now apply map_nth_error.
Qed.
Lemma gz_ival t name d i : stored f t qid name = Some d -> (i < dlength d)%nat -> ival f t qid name i (gz (map i32 (as_ints d)) i).
Proof. intros S L. destruct (gz_val i32 d i L) as (k & A & ->). exists d, k. auto. Qed.
Lemma gz_lval t name d i : stored f t qid name = Some d -> (i < dlength d)%nat -> lval f t qid name i (gz (map i64 (as_ints d)) i).
Proof. intros S L. destruct (gz_val i64 d i L) as (k & A & ->). exists d, k. auto. Qed.

Lemma with_n_ok t var k n ms : at_path t var "n" -> (with_n f var qid k = (n, Ok ms) <-> exists m, n = Some (Z.of_nat m) /\ count f t qid (Z.of_nat m) /\ k m = Ok ms).
Proof.
  intros A. unfold with_n. destruct (read_long f var qid 1) as [l| |] eqn:E.
  - apply (rd_long t var "n" 1 l A) in E as (d & S & L & ->). rewrite <- as_ints_length in L.
    destruct (as_ints d) as [|x [|y r]] eqn:D; try discriminate L. cbn [map]. unfold gz at 1 2 3. cbn [nth].
    destruct (Z.ltb_spec (i64 x) 0) as [N|N].
    + split; [intros H; inversion H|]. intros (m & _ & (d' & k' & S' & D' & H) & _). rewrite S in S'. injection S' as <-. rewrite D in D'. injection D' as <-. lia.
    + split.
      * intros H. injection H as <- H. exists (Z.to_nat (i64 x)). rewrite Z2Nat.id by lia. split; [reflexivity|]. split; [|exact H]. exists d, x. auto.
      * intros (m & -> & (d' & k' & S' & D' & H) & K). rewrite S in S'. injection S' as <-. rewrite D in D'. injection D' as <-.
        rewrite <- H. rewrite Nat2Z.id. congruence.
  - split; [discriminate|]. intros (m & _ & (d & k' & S & D & H) & _). exfalso.
    assert (X : read_long f var qid 1 = Ok [i64 k']); [|congruence]. apply (rd_long t var "n" 1 _ A). exists d. rewrite D. repeat split; auto. now rewrite <- as_ints_length, D.
  - split; [discriminate|]. intros (m & _ & (d & k' & S & D & H) & _). exfalso.
    assert (X : read_long f var qid 1 = Ok [i64 k']); [|congruence]. apply (rd_long t var "n" 1 _ A). exists d. rewrite D. repeat split; auto. now rewrite <- as_ints_length, D.
Qed.
Lemma addr t name : plain t -> no "X" t -> t <> "" -> plain name -> name <> "" -> lookup f (tmpl "marker" t name) qid = stored f t qid name.
Proof.
  intros P X N Pn Nn. unfold stored. apply lookup_address; auto; try discriminate; unfold plain, no; cbn; intuition discriminate.
Qed.
Ltac chars := unfold plain, no; cbn; intuition discriminate.
Lemma at_prt name : plain name -> name <> "" -> at_path "prt_" ("/marker/prt_XXXXXXXXXX/" ++ name) name.
Proof. intros P N. exact (addr "prt_" name ltac:(chars) ltac:(chars) ltac:(discriminate) P N). Qed.
Lemma at_gc name : plain name -> name <> "" -> at_path "gc_" ("/marker/gc_XXXXXXXXXX/" ++ name) name.
Proof. intros P N. exact (addr "gc_" name ltac:(chars) ltac:(chars) ltac:(discriminate) P N). Qed.
Lemma at_fl name : plain name -> name <> "" -> at_path "fl_" ("/marker/fl_XXXXXXXXXX/" ++ name) name.
Proof. intros P N. exact (addr "fl_" name ltac:(chars) ltac:(chars) ltac:(discriminate) P N). Qed.

Ltac peel at_ :=
  match goal with
  | H : bind (read_double f _ qid _) _ = Ok _ |- _ =>
      let l := fresh "l" in let d := fresh "d" in let S := fresh "S" in let L := fresh "L" in let E := fresh "E" in
      apply bind_ok in H as (l & E & H); eapply rd_double in E; [|apply at_; [chars|discriminate]]; destruct E as (d & S & L & ->)
  | H : bind (read_int f _ qid _) _ = Ok _ |- _ =>
      let l := fresh "l" in let d := fresh "d" in let S := fresh "S" in let L := fresh "L" in let E := fresh "E" in
      apply bind_ok in H as (l & E & H); eapply rd_int in E; [|apply at_; [chars|discriminate]]; destruct E as (d & S & L & ->)
  | H : bind (read_long f _ qid _) _ = Ok _ |- _ =>
      let l := fresh "l" in let d := fresh "d" in let S := fresh "S" in let L := fresh "L" in let E := fresh "E" in
      apply bind_ok in H as (l & E & H); eapply rd_long in E; [|apply at_; [chars|discriminate]]; destruct E as (d & S & L & ->)
  end.
Lemma rd_double_some t var name n d : at_path t var name -> stored f t qid name = Some d -> dlength d = n -> read_double f var qid n = Ok (as_reals d).
Proof. intros A S L. apply (rd_double t var name n _ A). eauto. Qed.
Lemma rd_int_some t var name n d : at_path t var name -> stored f t qid name = Some d -> dlength d = n -> read_int f var qid n = Ok (map i32 (as_ints d)).
Proof. intros A S L. apply (rd_int t var name n _ A). eauto. Qed.
Lemma rd_long_some t var name n d : at_path t var name -> stored f t qid name = Some d -> dlength d = n -> read_long f var qid n = Ok (map i64 (as_ints d)).
Proof. intros A S L. apply (rd_long t var name n _ A). eauto. Qed.
Ltac push at_ :=
  match goal with
  | |- exists ms, bind (read_double f _ qid ?n) _ = Ok ms =>
      erewrite rd_double_some by (try (apply at_; [chars|discriminate]); eassumption); cbn [bind]
  | |- exists ms, bind (read_int f _ qid ?n) _ = Ok ms =>
      erewrite rd_int_some by (try (apply at_; [chars|discriminate]); eassumption); cbn [bind]
  | |- exists ms, bind (read_long f _ qid ?n) _ = Ok ms =>
      erewrite rd_long_some by (try (apply at_; [chars|discriminate]); eassumption); cbn [bind]
  end.
Ltac cols H := 
  repeat match goal with
  | H : Forall _ (_ :: _) |- _ => let S := fresh "S" in inversion_clear H as [|? ? (? & S & ?) ?]
  | H : Forall _ [] |- _ => clear H
  end.
Lemma gamma_spec vx vy vz m : slow vx vy vz -> let g := 1 / sqrt (1 - (vx * vx + vy * vy + vz * vz) / CONST_C2) in
  momentum m vx vy vz (vx * g * m) (vy * g * m) (vz * g * m).
Proof.
  intros S g. unfold slow in S. assert (C := C2_pos).
  assert (D : 0 < 1 - (vx * vx + vy * vy + vz * vz) / CONST_C2).
  { apply Rmult_lt_reg_r with CONST_C2; [exact C|]. field_simplify; lra. }
  assert (Q := sqrt_lt_R0 _ D). assert (QQ := sqrt_sqrt _ (Rlt_le _ _ D)). exists g. subst g.
  split; [apply Rdiv_lt_0_compat; lra|]. split; [|repeat split; ring].
  set (X := 1 - (vx * vx + vy * vy + vz * vz) / CONST_C2) in *. rewrite <- QQ at 3. field. lra.
Qed.
(** the markers read are those of the file, in SI units *)
Theorem particles_read n ms : read_particle f qid = (n, Ok ms) ->
  n = Some (Z.of_nat (List.length ms)) /\ count f "prt_" qid (Z.of_nat (List.length ms)) /\
  forall i m, nth_error ms i = Some m -> exists p deg vx vy vz mass q, m = IP p /\
    rval f "prt_" qid "r" i (p_r p) /\ rval f "prt_" qid "phi" i deg /\ p_phi p = rad deg /\ rval f "prt_" qid "z" i (p_z p) /\
    rval f "prt_" qid "vr" i vx /\ rval f "prt_" qid "vphi" i vy /\ rval f "prt_" qid "vz" i vz /\
    rval f "prt_" qid "mass" i mass /\ p_mass p = mass * CONST_U /\ ival f "prt_" qid "charge" i q /\ p_charge p = IZR q * CONST_E /\
    ival f "prt_" qid "anum" i (p_anum p) /\ ival f "prt_" qid "znum" i (p_znum p) /\
    rval f "prt_" qid "weight" i (p_weight p) /\ rval f "prt_" qid "time" i (p_time p) /\ lval f "prt_" qid "id" i (p_id p) /\
    (slow vx vy vz -> momentum (p_mass p) vx vy vz (p_pr p) (p_pphi p) (p_pz p)).
Proof.
  unfold read_particle. intros H. apply (with_n_ok "prt_") in H; [|apply at_prt; [chars|discriminate]]. destruct H as (k & -> & C & H).
  repeat peel at_prt. injection H as <-. rewrite map_length, seq_length. split; [reflexivity|]. split; [exact C|].
  intros i m M. assert (Li : (i < k)%nat) by (rewrite <- (seq_length k 0), <- (map_length (fun i => IP (prt_of (gr (as_reals d) i) (gr (as_reals d0) i) (gr (as_reals d1) i) (gr (as_reals d2) i) (gr (as_reals d3) i) (gr (as_reals d4) i)
    (gr (as_reals d5) i) (gz (map i32 (as_ints d6)) i) (gz (map i32 (as_ints d7)) i) (gz (map i32 (as_ints d8)) i) (gr (as_reals d9) i) (gr (as_reals d10) i) (gz (map i64 (as_ints d11)) i)))); apply nth_error_Some; congruence).
  assert (Q : nth_error (seq 0 k) i = Some i) by (rewrite nth_error_nth' with (d := 0%nat) by (now rewrite seq_length); f_equal; now apply seq_nth).
  apply (map_nth_error (fun i => IP (prt_of (gr (as_reals d) i) (gr (as_reals d0) i) (gr (as_reals d1) i) (gr (as_reals d2) i) (gr (as_reals d3) i) (gr (as_reals d4) i)
    (gr (as_reals d5) i) (gz (map i32 (as_ints d6)) i) (gz (map i32 (as_ints d7)) i) (gz (map i32 (as_ints d8)) i) (gr (as_reals d9) i) (gr (as_reals d10) i) (gz (map i64 (as_ints d11)) i)))) in Q.
  rewrite Q in M. injection M as <-. clear Q.
  exists (prt_of (gr (as_reals d) i) (gr (as_reals d0) i) (gr (as_reals d1) i) (gr (as_reals d2) i) (gr (as_reals d3) i) (gr (as_reals d4) i)
    (gr (as_reals d5) i) (gz (map i32 (as_ints d6)) i) (gz (map i32 (as_ints d7)) i) (gz (map i32 (as_ints d8)) i) (gr (as_reals d9) i) (gr (as_reals d10) i) (gz (map i64 (as_ints d11)) i)).
  exists (gr (as_reals d0) i), (gr (as_reals d2) i), (gr (as_reals d3) i), (gr (as_reals d4) i), (gr (as_reals d5) i), (gz (map i32 (as_ints d6)) i).
  cbn [prt_of p_r p_phi p_z p_pr p_pphi p_pz p_mass p_charge p_anum p_znum p_weight p_time p_id].
  split; [reflexivity|].
  repeat (match goal with
  | |- rval _ _ _ _ _ _ /\ _ => split; [apply gr_val; [assumption|lia]|]
  | |- ival _ _ _ _ _ _ /\ _ => split; [apply gz_ival; [assumption|lia]|]
  | |- lval _ _ _ _ _ _ /\ _ => split; [apply gz_lval; [assumption|lia]|]
  | |- _ = _ /\ _ => split; [try reflexivity; unfold rad; field|]
  end).
  intros Sl. destruct (gamma_spec _ _ _ (gr (as_reals d5) i * CONST_U) Sl) as (g & g0 & g1 & E1 & E2 & E3).
  exists g. repeat split; auto; [rewrite <- E1|rewrite <- E2|rewrite <- E3]; ring.
Qed.
Theorem gcs_read n ms : read_guiding_center f qid = (n, Ok ms) ->
  n = Some (Z.of_nat (List.length ms)) /\ count f "gc_" qid (Z.of_nat (List.length ms)) /\
  forall i m, nth_error ms i = Some m -> exists g deg ev mass q, m = IGC g /\
    rval f "gc_" qid "r" i (g_r g) /\ rval f "gc_" qid "phi" i deg /\ g_phi g = rad deg /\ rval f "gc_" qid "z" i (g_z g) /\
    rval f "gc_" qid "energy" i ev /\ g_energy g = ev * CONST_E /\ rval f "gc_" qid "pitch" i (g_pitch g) /\ rval f "gc_" qid "zeta" i (g_zeta g) /\
    rval f "gc_" qid "mass" i mass /\ g_mass g = mass * CONST_U /\ ival f "gc_" qid "charge" i q /\ g_charge g = IZR q * CONST_E /\
    ival f "gc_" qid "anum" i (g_anum g) /\ ival f "gc_" qid "znum" i (g_znum g) /\
    rval f "gc_" qid "weight" i (g_weight g) /\ rval f "gc_" qid "time" i (g_time g) /\ lval f "gc_" qid "id" i (g_id g).
Proof.
  unfold read_guiding_center. intros H. apply (with_n_ok "gc_") in H; [|apply at_gc; [chars|discriminate]]. destruct H as (k & -> & C & H).
  repeat peel at_gc. injection H as <-. rewrite map_length, seq_length. split; [reflexivity|]. split; [exact C|].
  intros i m M. rewrite nth_error_map in M. destruct (nth_error (seq 0 k) i) as [j|] eqn:Q; [|discriminate]. cbn in M. injection M as <-.
  assert (Li : (i < k)%nat) by (rewrite <- (seq_length k 0); apply nth_error_Some; congruence).
  assert (j = i) by (apply nth_error_nth with (d := 0%nat) in Q; rewrite seq_nth in Q by exact Li; lia). subst j.
  eexists _, (gr (as_reals d0) i), (gr (as_reals d2) i), (gr (as_reals d5) i), (gz (map i32 (as_ints d6)) i).
  split; [reflexivity|]. cbn [g_r g_phi g_z g_energy g_pitch g_zeta g_mass g_charge g_anum g_znum g_weight g_time g_id].
  repeat (match goal with
  | |- rval _ _ _ _ _ _ /\ _ => split; [apply gr_val; [assumption|lia]|]
  | |- ival _ _ _ _ _ _ /\ _ => split; [apply gz_ival; [assumption|lia]|]
  | |- lval _ _ _ _ _ _ => apply gz_lval; [assumption|lia]
  | |- _ = _ /\ _ => split; [try reflexivity; unfold rad; field|]
  end).
Qed.
Theorem fls_read n ms : read_field_line f qid = (n, Ok ms) ->
  n = Some (Z.of_nat (List.length ms)) /\ count f "fl_" qid (Z.of_nat (List.length ms)) /\
  forall i m, nth_error ms i = Some m -> exists l deg, m = IML l /\
    rval f "fl_" qid "r" i (l_r l) /\ rval f "fl_" qid "phi" i deg /\ l_phi l = rad deg /\ rval f "fl_" qid "z" i (l_z l) /\
    rval f "fl_" qid "pitch" i (l_pitch l) /\ rval f "fl_" qid "weight" i (l_weight l) /\ rval f "fl_" qid "time" i (l_time l) /\ lval f "fl_" qid "id" i (l_id l).
Proof.
  unfold read_field_line. intros H. apply (with_n_ok "fl_") in H; [|apply at_fl; [chars|discriminate]]. destruct H as (k & -> & C & H).
  repeat peel at_fl. injection H as <-. rewrite map_length, seq_length. split; [reflexivity|]. split; [exact C|].
  intros i m M. rewrite nth_error_map in M. destruct (nth_error (seq 0 k) i) as [j|] eqn:Q; [|discriminate]. cbn in M. injection M as <-.
  assert (Li : (i < k)%nat) by (rewrite <- (seq_length k 0); apply nth_error_Some; congruence).
  assert (j = i) by (apply nth_error_nth with (d := 0%nat) in Q; rewrite seq_nth in Q by exact Li; lia). subst j.
  eexists _, (gr (as_reals d0) i).
  split; [reflexivity|]. cbn [l_r l_phi l_z l_pitch l_weight l_time l_id].
  repeat (match goal with
  | |- rval _ _ _ _ _ _ /\ _ => split; [apply gr_val; [assumption|lia]|]
  | |- lval _ _ _ _ _ _ => apply gz_lval; [assumption|lia]
  | |- _ = _ /\ _ => split; [try reflexivity; unfold rad; field|]
  end).
Qed.
(** reading succeeds exactly when all columns are there with as many entries as there are markers *)
Theorem particles_iff : (exists ms, snd (read_particle f qid) = Ok ms) <-> exists k, count f "prt_" qid (Z.of_nat k) /\ Forall (column f "prt_" qid k) prt_names.
Proof.
  split.
  - intros (ms & H). destruct (read_particle f qid) as [n o] eqn:E. cbn in H. subst o. unfold read_particle in E.
    apply (with_n_ok "prt_") in E; [|apply at_prt; [chars|discriminate]]. destruct E as (k & -> & C & H). exists k. split; [exact C|].
    repeat peel at_prt. unfold prt_names. repeat constructor; eexists; split; eassumption.
  - intros (k & C & F). unfold prt_names in F. cols F.
    assert (G : exists ms, read_particle f qid = (Some (Z.of_nat k), Ok ms)); [|destruct G as (ms & ->); exists ms; reflexivity].
    unfold read_particle.
    match goal with |- exists ms, with_n f ?v qid ?kk = _ => assert (G : exists ms, kk k = Ok ms) end.
    { cbv beta. repeat push at_prt. eauto. }
    destruct G as (ms & G). exists ms. apply (with_n_ok "prt_"); [apply at_prt; [chars|discriminate]|]. exists k. auto.
Qed.
Theorem gcs_iff : (exists ms, snd (read_guiding_center f qid) = Ok ms) <-> exists k, count f "gc_" qid (Z.of_nat k) /\ Forall (column f "gc_" qid k) gc_names.
Proof.
  split.
  - intros (ms & H). destruct (read_guiding_center f qid) as [n o] eqn:E. cbn in H. subst o. unfold read_guiding_center in E.
    apply (with_n_ok "gc_") in E; [|apply at_gc; [chars|discriminate]]. destruct E as (k & -> & C & H). exists k. split; [exact C|].
    repeat peel at_gc. unfold gc_names. repeat constructor; eexists; split; eassumption.
  - intros (k & C & F). unfold gc_names in F. cols F.
    assert (G : exists ms, read_guiding_center f qid = (Some (Z.of_nat k), Ok ms)); [|destruct G as (ms & ->); exists ms; reflexivity].
    unfold read_guiding_center.
    match goal with |- exists ms, with_n f ?v qid ?kk = _ => assert (G : exists ms, kk k = Ok ms) end.
    { cbv beta. repeat push at_gc. eauto. }
    destruct G as (ms & G). exists ms. apply (with_n_ok "gc_"); [apply at_gc; [chars|discriminate]|]. exists k. auto.
Qed.
Theorem fls_iff : (exists ms, snd (read_field_line f qid) = Ok ms) <-> exists k, count f "fl_" qid (Z.of_nat k) /\ Forall (column f "fl_" qid k) fl_names.
Proof.
  split.
  - intros (ms & H). destruct (read_field_line f qid) as [n o] eqn:E. cbn in H. subst o. unfold read_field_line in E.
    apply (with_n_ok "fl_") in E; [|apply at_fl; [chars|discriminate]]. destruct E as (k & -> & C & H). exists k. split; [exact C|].
    repeat peel at_fl. unfold fl_names. repeat constructor; eexists; split; eassumption.
  - intros (k & C & F). unfold fl_names in F. cols F.
    assert (G : exists ms, read_field_line f qid = (Some (Z.of_nat k), Ok ms)); [|destruct G as (ms & ->); exists ms; reflexivity].
    unfold read_field_line.
    match goal with |- exists ms, with_n f ?v qid ?kk = _ => assert (G : exists ms, kk k = Ok ms) end.
    { cbv beta. repeat push at_fl. eauto. }
    destruct G as (ms & G). exists ms. apply (with_n_ok "fl_"); [apply at_fl; [chars|discriminate]|]. exists k. auto.
Qed.
End at_.

(** ** Several groups with one QID *)
Definition group_there (f : h5) (t qid : string) : bool := taken f ["marker"; t ++ qid].
Definition readers (f : h5) (qid : string) : list (string * rmk) := [("prt_", read_particle f qid); ("gc_", read_guiding_center f qid); ("fl_", read_field_line f qid)].
Definition there (f : h5) (qid : string) (x : string * rmk) : Prop := group_there f (fst x) qid = true.
Section read_all.
Variables (f : h5) (qid : string).
Hypothesis Lq : String.length qid = 10%nat. Hypothesis Pq : plain qid.
Ltac chars := unfold plain, no; cbn; intuition discriminate.
Lemma at_group t : plain t -> no "X" t -> t <> "" -> found_qid f (gtmpl "marker" t) qid = group_there f t qid.
Proof. intros P X N. unfold group_there, taken. apply found_address; auto; try discriminate; chars. Qed.
Definition mstep (s : outcome mres) (x : string * rmk) : outcome mres := bind s (fun s =>
  if negb (group_there f (fst x) qid) then Ok s
  else let n := match fst (snd x) with Some n => Some n | None => m_n s end in
       match snd (snd x) with Ok l => Ok (mkmres true n (Some l)) | Rejected => Ok (mkmres (m_ok s) n (m_p s)) | Overflow => Overflow end).
Lemma marker_read_eq : marker_read f qid = fold_left mstep (readers f qid) (Ok (mkmres false None None)).
Proof.
  unfold marker_read, readers. cbn [fold_left fst snd].
  unfold mstep. cbn [fst snd]. rewrite <- (at_group "prt_"), <- (at_group "gc_"), <- (at_group "fl_") by (try discriminate; chars). timeout 60 reflexivity.
Qed.
(** one group: its markers and their number, or failure *)
Theorem single_group x : In x (readers f qid) -> there f qid x -> (forall y, In y (readers f qid) -> there f qid y -> y = x) ->
  match snd (snd x) with
  | Ok l => exists s, marker_read f qid = Ok s /\ m_ok s = true /\ m_p s = Some l
  | Rejected => exists s, marker_read f qid = Ok s /\ m_ok s = false
  | Overflow => marker_read f qid = Overflow
  end.
Proof.
  intros I T U. rewrite marker_read_eq. unfold readers in *. cbn [fold_left]. unfold mstep.
  assert (N : forall y, In y (readers f qid) -> fst y <> fst x -> group_there f (fst y) qid = false).
  { intros y J D. destruct (group_there f (fst y) qid) eqn:E; [|reflexivity]. exfalso. apply D. f_equal. now apply U. }
  unfold readers in N. unfold there in T. cbn in I. destruct I as [<-|[<-|[<-|[]]]]; cbn [fst snd] in *.
  - assert (N1 := N ("gc_", read_guiding_center f qid)). assert (N2 := N ("fl_", read_field_line f qid)). cbn [fst In] in N1, N2. rewrite N1, N2, T by (auto; discriminate). cbn [bind negb].
    destruct (snd (read_particle f qid)); cbn; eauto.
  - assert (N1 := N ("prt_", read_particle f qid)). assert (N2 := N ("fl_", read_field_line f qid)). cbn [fst In] in N1, N2. rewrite N1, N2, T by (auto; discriminate). cbn [bind negb].
    destruct (snd (read_guiding_center f qid)); cbn; eauto.
  - assert (N1 := N ("prt_", read_particle f qid)). assert (N2 := N ("gc_", read_guiding_center f qid)). cbn [fst In] in N1, N2. rewrite N1, N2, T by (auto; discriminate). cbn [bind negb].
    destruct (snd (read_field_line f qid)); cbn; eauto.
Qed.
Lemma reader_n x l : In x (readers f qid) -> snd (snd x) = Ok l -> fst (snd x) = Some (Z.of_nat (List.length l)).
Proof.
  cbn. intros [<-|[<-|[<-|[]]]] E; cbn in *.
  - destruct (read_particle f qid) as [n o] eqn:R. cbn in *. subst o. apply particles_read in R; auto. tauto.
  - destruct (read_guiding_center f qid) as [n o] eqn:R. cbn in *. subst o. apply gcs_read in R; auto. tauto.
  - destruct (read_field_line f qid) as [n o] eqn:R. cbn in *. subst o. apply fls_read in R; auto. tauto.
Qed.
(** the number and the list agree when every group that is there can be read *)
Theorem number_agrees s : marker_read f qid = Ok s -> (forall x, In x (readers f qid) -> there f qid x -> snd (snd x) <> Rejected) ->
  match m_p s with Some l => m_ok s = true /\ m_n s = Some (Z.of_nat (List.length l)) | None => m_ok s = false /\ m_n s = None end.
Proof.
  rewrite marker_read_eq. intros M G.
  assert (K : forall L, (forall x, In x L -> In x (readers f qid)) -> forall s0 s,
    match m_p s0 with Some l => m_ok s0 = true /\ m_n s0 = Some (Z.of_nat (List.length l)) | None => m_ok s0 = false /\ m_n s0 = None end ->
    fold_left mstep L (Ok s0) = Ok s ->
    match m_p s with Some l => m_ok s = true /\ m_n s = Some (Z.of_nat (List.length l)) | None => m_ok s = false /\ m_n s = None end).
  { induction L as [|x L IH]; intros S s0 s1 H F; cbn [fold_left] in F; [injection F as <-; exact H|].
    assert (O : forall g, fold_left mstep g Overflow = Overflow).
    { induction g; cbn; auto. }
    unfold mstep at 2 in F. cbn [bind] in F. destruct (group_there f (fst x) qid) eqn:T; cbn [negb] in F.
    - assert (Ix : In x (readers f qid)) by (apply S; now left). specialize (G x Ix T).
      destruct (snd (snd x)) as [l| |] eqn:E; [|congruence|rewrite O in F; discriminate].
      rewrite (reader_n x l Ix E) in F. eapply IH; [..|exact F]; [intros; apply S; now right|]. cbn. auto.
    - eapply IH; [..|exact F]; [intros; apply S; now right|exact H]. }
  eapply K; [..|exact M]; [auto|cbn; auto].
Qed.
End read_all.

(** ** Writing and reading back *)
Definition tree (f : h5) : Prop := forall p x, grp f p = false -> grp f (p ++ [x])%list = false /\ dst f (p ++ [x])%list = None.
Definition free_for (f : h5) (qid : string) : Prop := tree f /\ taken f ["marker"; "prt_" ++ qid] = false /\ dst f ["marker"] = None.
Definition fits (p : prt) : Prop :=
  (- 2 ^ 31 <= p_anum p < 2 ^ 31 /\ - 2 ^ 31 <= p_znum p < 2 ^ 31 /\ - 2 ^ 63 <= p_id p < 2 ^ 63)%Z /\ 0 < p_mass p.
Definition whole_charge (p : prt) : Prop := exists k, (- 2 ^ 31 <= k < 2 ^ 31)%Z /\ p_charge p = IZR k * CONST_E.
Lemma fold_write G l : forall f, NoDup (map fst l) -> (forall x, In x l -> dlength (snd x) <> 0%nat /\ dst f (G ++ [fst x])%list = None /\ grp f (G ++ [fst x])%list = false) ->
  forall x, In x l -> dst (fold_left (fun f x => write_ds f G x) l f) (G ++ [fst x])%list = Some (snd x).
Proof.
  assert (Keep : forall l1 f p, (forall x, In x l1 -> p <> (G ++ [fst x])%list) -> dst (fold_left (fun f x => write_ds f G x) l1 f) p = dst f p).
  { induction l1 as [|y l0 IH]; intros f p H; [reflexivity|]. cbn [fold_left]. rewrite IH by (intros; apply H; now right).
    unfold write_ds. destruct (_ || _); [reflexivity|]. cbn. destruct path_dec as [E|]; [|reflexivity]. now apply H in E; [|left]. }
  induction l as [|y l IH]; intros f N H x I; [destruct I|]. cbn [fold_left]. cbn [map] in N. apply NoDup_cons_iff in N as [Ny N].
  destruct (H y (or_introl eq_refl)) as (D & F & Gf).
  assert (W : write_ds f G y = set_dst f (G ++ [fst y])%list (snd y)).
  { unfold write_ds. rewrite F, Gf. destruct (Nat.eqb_spec (dlength (snd y)) 0); [congruence|reflexivity]. }
  destruct I as [->|I].
  - rewrite Keep, W.
    + cbn. destruct path_dec; congruence.
    + intros z J E. apply app_inj_tail in E as [_ E]. apply Ny. rewrite E. now apply in_map.
  - apply IH; [exact N| |exact I]. intros z J. destruct (H z (or_intror J)) as (D' & F' & G'). split; [exact D'|]. rewrite W. cbn. split; [|exact G'].
    destruct path_dec as [E|]; [|exact F']. apply app_inj_tail in E as [_ E]. exfalso. apply Ny. rewrite <- E. now apply in_map.
Qed.
Lemma prt_path qid : String.length qid = 10%nat -> gen_path "/marker/prt_XXXXXXXXXX" qid = Some ("/marker/prt_" ++ qid).
Proof. intros L. assert (X := gen_path_ten "/marker/prt_" "" qid). rewrite (sapp_nil qid) in X. apply X; [unfold no; cbn; intuition discriminate|exact L]. Qed.
Lemma prt_comps qid : plain qid -> comps ("/marker/prt_" ++ qid) = ["marker"; "prt_" ++ qid].
Proof.
  intros P. apply (comps_two "marker" ("prt_" ++ qid)); try discriminate; [unfold plain, no; cbn; intuition discriminate|].
  unfold plain. apply no_app. split; [unfold no; cbn; intuition discriminate|exact P].
Qed.
Lemma sets_stored f ps qid : String.length qid = 10%nat -> plain qid -> free_for f qid -> ps <> [] ->
  forall x, In x (prt_sets ps) -> stored (write_particle f ps qid) "prt_" qid (fst x) = Some (snd x).
Proof.
  intros L P (T & K & M) N x I. unfold write_particle. rewrite (prt_path qid L).
  set (f1 := if found f "/marker/" then f else add_group f ["marker"]).
  assert (G1 : forall p, p <> ["marker"] -> grp f1 p = grp f p) by (intros p D; unfold f1; destruct (found f _); [reflexivity|]; cbn; destruct path_dec; congruence).
  assert (D1 : dst f1 = dst f) by (unfold f1; destruct (found f _); reflexivity).
  assert (F : found f1 ("/marker/prt_" ++ qid) = false).
  { unfold found. rewrite prt_comps, G1, D1 by (auto; discriminate). exact K. }
  rewrite F, prt_comps by exact P. unfold stored.
  change ["marker"; "prt_" ++ qid; fst x] with (List.app ["marker"; "prt_" ++ qid] [fst x]).
  apply orb_false_iff in K as [Kg Kd].
  apply fold_write; [| |exact I].
  - unfold prt_sets. cbn. repeat constructor; cbn; intuition discriminate.
  - intros y J. split.
    + destruct ps as [|p ps]; [congruence|]. unfold prt_sets in J. cbn in J. repeat (destruct J as [<-|J]; [discriminate|]). destruct J.
    + destruct (T ["marker"; "prt_" ++ qid] (fst y) Kg) as [A B]. cbn [dst add_group grp]. rewrite D1. split; [exact B|].
      destruct path_dec as [E|]; [discriminate E|]. rewrite G1 by discriminate. exact A.
Qed.
Lemma clip_id lo hi x : (lo <= x <= hi)%Z -> clip lo hi x = x.
Proof. unfold clip. lia. Qed.
Lemma rnd_int k : rnd (IZR k) = k.
Proof.
  assert (A : forall j, Int_part (IZR j + 1 / 2) = j).
  { intros j. unfold Int_part. assert (up (IZR j + 1 / 2) = (j + 1)%Z); [|lia]. symmetry. apply tech_up; rewrite plus_IZR; lra. }
  unfold rnd. destruct (Rle_dec 0 (IZR k)); [apply A|]. rewrite <- opp_IZR, A. lia.
Qed.
Lemma column_of ps qid f : String.length qid = 10%nat -> plain qid -> free_for f qid -> ps <> [] ->
  Forall (column (write_particle f ps qid) "prt_" qid (List.length ps)) prt_names.
Proof.
  intros L P F N. assert (S := sets_stored f ps qid L P F N).
  assert (H : forall x, In x (tl (prt_sets ps)) -> column (write_particle f ps qid) "prt_" qid (List.length ps) (fst x)).
  { intros x I. exists (snd x). split; [apply S; now right|]. unfold prt_sets in I. cbn in I.
    repeat (destruct I as [<-|I]; [cbn; apply map_length|]). destruct I. }
  apply Forall_forall. intros n I. assert (E : prt_names = map fst (tl (prt_sets ps))) by reflexivity. rewrite E in I. apply in_map_iff in I as (x & <- & I). auto.
Qed.
Theorem written_back f ps qid : String.length qid = 10%nat -> plain qid -> free_for f qid -> ps <> [] -> (Z.of_nat (List.length ps) < 2 ^ 31)%Z -> Forall fits ps ->
  exists qs, read_particle (write_particle f ps qid) qid = (Some (Z.of_nat (List.length ps)), Ok (map IP qs)) /\
  Forall2 (fun p q => p_r q = p_r p /\ p_phi q = p_phi p /\ p_z q = p_z p /\ p_mass q = p_mass p /\ p_anum q = p_anum p /\ p_znum q = p_znum p /\
    p_weight q = p_weight p /\ p_time q = p_time p /\ p_id q = p_id p /\ (p_charge q = p_charge p <-> whole_charge p) /\
    (psq p * (1 - p_mass p) < p_mass p * p_mass p * CONST_C2 -> (p_pr q = p_pr p /\ p_pphi q = p_pphi p /\ p_pz q = p_pz p <-> psq p = 0 \/ p_mass p = 1))) ps qs.
Proof.
  intros L P F N Hn Ft. set (f' := write_particle f ps qid).
  assert (S := sets_stored f ps qid L P F N). fold f' in S.
  assert (C : count f' "prt_" qid (Z.of_nat (List.length ps))).
  { exists (DInt [Z.of_nat (List.length ps)]), (Z.of_nat (List.length ps)). split; [apply (S ("n", _)); now left|]. split; [reflexivity|].
    unfold i64. rewrite clip_id; lia. }
  assert (E : exists n ms, read_particle f' qid = (n, Ok ms)).
  { destruct (proj2 (particles_iff f' qid L P)) as (ms & E); [exists (List.length ps); split; [exact C|now apply column_of]|].
    destruct (read_particle f' qid) as [n o]. cbn in E. subst o. eauto. }
  destruct E as (n & ms & E). destruct (particles_read f' qid L P n ms E) as (-> & C' & V).
  assert (Len : List.length ms = List.length ps).
  { destruct C as (d & k & S1 & D1 & K1), C' as (d' & k' & S2 & D2 & K2). rewrite S1 in S2. injection S2 as <-. rewrite D1 in D2. injection D2 as <-. lia. }
  set (unp m := match m with IP q => q | _ => mkp 0 0 0 0 0 0 0 0 0 0 0 0 0 end).
  exists (map unp ms). rewrite map_map. rewrite <- Len. split.
  { rewrite E. do 2 f_equal. rewrite <- (map_id ms) at 1. apply map_ext_in. intros m I. apply In_nth_error in I as (i & I).
    destruct (V i m I) as (p & H). decompose [ex and] H. subst m. reflexivity. }
  assert (A : forall i p, nth_error ps i = Some p -> exists q, nth_error (map unp ms) i = Some q /\
    (p_r q = p_r p /\ p_phi q = p_phi p /\ p_z q = p_z p /\ p_mass q = p_mass p /\ p_anum q = p_anum p /\ p_znum q = p_znum p /\
    p_weight q = p_weight p /\ p_time q = p_time p /\ p_id q = p_id p /\ (p_charge q = p_charge p <-> whole_charge p) /\
    (psq p * (1 - p_mass p) < p_mass p * p_mass p * CONST_C2 -> (p_pr q = p_pr p /\ p_pphi q = p_pphi p /\ p_pz q = p_pz p <-> psq p = 0 \/ p_mass p = 1)))).
  { intros i p Ip. assert (Fp : fits p) by (rewrite Forall_forall in Ft; apply Ft; eapply nth_error_In; eauto).
    destruct (nth_error ms i) as [m|] eqn:Em; [|apply nth_error_None in Em; assert (i < List.length ps)%nat by (apply nth_error_Some; congruence); lia].
    destruct (V i m Em) as (q & deg & vx & vy & vz & mass & qc & -> & V1 & V2 & V3 & V4 & V5 & V6 & V7 & V8 & V9 & V10 & V11 & V12 & V13 & V14 & V15 & V16 & V17).
    exists q. split; [rewrite nth_error_map, Em; reflexivity|].
    assert (RV : forall nm (h : prt -> R) v, In (nm, DReal (map h ps)) (prt_sets ps) -> rval f' "prt_" qid nm i v -> v = h p).
    { intros nm h v I (d & S1 & E1). assert (S2 := S _ I). cbn [fst snd] in S2. rewrite S2 in S1. injection S1 as <-. cbn in E1. rewrite nth_error_map, Ip in E1. cbn in E1. congruence. }
    assert (IV : forall nm (h : prt -> Z) v, In (nm, DInt (map h ps)) (prt_sets ps) -> ival f' "prt_" qid nm i v -> v = i32 (h p)).
    { intros nm h v I (d & k & S1 & E1 & E2). assert (S2 := S _ I). cbn [fst snd] in S2. rewrite S2 in S1. injection S1 as <-. cbn in E1. rewrite nth_error_map, Ip in E1. cbn in E1. congruence. }
    assert (LV : forall nm (h : prt -> Z) v, In (nm, DInt (map h ps)) (prt_sets ps) -> lval f' "prt_" qid nm i v -> v = i64 (h p)).
    { intros nm h v I (d & k & S1 & E1 & E2). assert (S2 := S _ I). cbn [fst snd] in S2. rewrite S2 in S1. injection S1 as <-. cbn in E1. rewrite nth_error_map, Ip in E1. cbn in E1. congruence. }
    destruct Fp as ((F1 & F2 & F3) & Mp).
    assert (U := U_pos). assert (Ep := E_pos). assert (PI0 := PI_RGT_0). assert (C2 := C2_pos).
    apply (RV "r" p_r) in V1; [|cbn; tauto].
    apply (RV "phi" (fun p => p_phi p * 180 / PI)) in V2; [|cbn; tauto].
    apply (RV "z" p_z) in V4; [|cbn; tauto].
    apply (RV "vr" (fun p => p_pr p / (p_mass p * wgamma p))) in V5; [|cbn; tauto].
    apply (RV "vphi" (fun p => p_pphi p / (p_mass p * wgamma p))) in V6; [|cbn; tauto].
    apply (RV "vz" (fun p => p_pz p / (p_mass p * wgamma p))) in V7; [|cbn; tauto].
    apply (RV "mass" (fun p => p_mass p / CONST_U)) in V8; [|cbn; tauto].
    apply (IV "charge" (fun p => rnd (p_charge p / CONST_E))) in V10; [|cbn; tauto].
    apply (IV "anum" p_anum) in V12; [|cbn; tauto].
    apply (IV "znum" p_znum) in V13; [|cbn; tauto].
    apply (RV "weight" p_weight) in V14; [|cbn; tauto].
    apply (RV "time" p_time) in V15; [|cbn; tauto].
    apply (LV "id" p_id) in V16; [|cbn; tauto].
    unfold i32 in V12, V13, V10. unfold i64 in V16. rewrite clip_id in V12, V13, V16 by lia.
    assert (Mq : p_mass q = p_mass p) by (rewrite V9, V8; field; lra).
    split; [exact V1|]. split; [rewrite V3, V2; unfold rad; field; lra|]. split; [exact V4|]. split; [exact Mq|]. split; [exact V12|]. split; [exact V13|].
    split; [exact V14|]. split; [exact V15|]. split; [exact V16|]. split.
    - rewrite V11, V10. split.
      + intros H. exists (clip (- 2 ^ 31) (2 ^ 31 - 1) (rnd (p_charge p / CONST_E))). split; [unfold clip; lia|symmetry; exact H].
      + intros (k & Hk & Ek). rewrite Ek. replace (IZR k * CONST_E / CONST_E) with (IZR k) by (field; lra). rewrite rnd_int, clip_id by lia. reflexivity.
    - intros Sl.
      assert (PS : 0 <= psq p) by (unfold psq; nra).
      assert (G2 : 0 < 1 + psq p / (CONST_C2 * p_mass p)) by (assert (0 <= psq p / (CONST_C2 * p_mass p)) by (apply Rmult_le_pos; [exact PS|]; apply Rlt_le, Rinv_0_lt_compat; nra); lra).
      assert (W : 0 < wgamma p) by (apply sqrt_lt_R0; exact G2).
      assert (WW : wgamma p * wgamma p = 1 + psq p / (CONST_C2 * p_mass p)) by (apply sqrt_sqrt; lra).
      set (w := wgamma p) in *. set (m := p_mass p) in *.
      assert (VV : vx * vx + vy * vy + vz * vz = psq p / (m * m * (w * w))) by (subst vx vy vz; unfold psq; field; lra).
      assert (Mw : 0 < m * m * (w * w)) by (apply Rmult_lt_0_compat; nra).
      assert (SL : slow vx vy vz).
      { unfold slow. rewrite VV. apply Rmult_lt_reg_r with (m * m * (w * w)); [exact Mw|]. unfold Rdiv at 1. rewrite Rmult_assoc, Rinv_l, Rmult_1_r by lra.
        rewrite WW. replace (CONST_C2 * (m * m * (1 + psq p / (CONST_C2 * m)))) with (m * m * CONST_C2 + psq p * m) by (field; lra). lra. }
      apply V17 in SL. destruct SL as (g & g0 & g1 & X1 & X2 & X3). rewrite VV in g1. rewrite Mq in X1, X2, X3.
      rewrite V5 in X1. rewrite V6 in X2. rewrite V7 in X3.
      assert (Y1 : p_pr q = g / w * p_pr p) by (rewrite X1; field; lra).
      assert (Y2 : p_pphi q = g / w * p_pphi p) by (rewrite X2; field; lra).
      assert (Y3 : p_pz q = g / w * p_pz p) by (rewrite X3; field; lra).
      assert (GW : g * g * (w * w - psq p / (m * m * CONST_C2)) = w * w).
      { transitivity ((w * w) * (g * g * (1 - psq p / (m * m * (w * w)) / CONST_C2))); [field; lra|rewrite g1; ring]. }
      split.
      + intros (Z1 & Z2 & Z3). destruct (Req_dec (psq p) 0) as [Z0|Z0]; [now left|right].
        assert (D : (g / w - 1) * psq p = 0).
        { unfold psq. transitivity ((g / w * p_pr p - p_pr p) * p_pr p + (g / w * p_pphi p - p_pphi p) * p_pphi p + (g / w * p_pz p - p_pz p) * p_pz p); [ring|].
          rewrite <- Y1, <- Y2, <- Y3, Z1, Z2, Z3. ring. }
        apply Rmult_integral in D as [D|D]; [|contradiction].
        assert (gw : g = w) by (assert (X : g = (g / w - 1) * w + w) by (field; lra); rewrite D in X; lra).
        rewrite gw, WW in GW.
        assert (Q : 1 + psq p / (CONST_C2 * m) - psq p / (m * m * CONST_C2) = 1).
        { apply Rmult_eq_reg_l with (1 + psq p / (CONST_C2 * m)); lra. }
        assert (R0 : psq p * (m - 1) = 0).
        { transitivity ((psq p / (CONST_C2 * m) - psq p / (m * m * CONST_C2)) * (m * m * CONST_C2)); [field; lra|]. replace (psq p / (CONST_C2 * m) - psq p / (m * m * CONST_C2)) with 0 by lra. ring. }
        apply Rmult_integral in R0 as [R0|R0]; [contradiction|lra].
      + intros [Z0|Z0].
        * unfold psq in Z0. assert (p_pr p = 0 /\ p_pphi p = 0 /\ p_pz p = 0) as (Z1 & Z2 & Z3) by (repeat split; nra).
          rewrite Y1, Y2, Y3, Z1, Z2, Z3. repeat split; ring.
        * rewrite Z0 in GW, WW. rewrite WW in GW.
          assert (gg : g * g = w * w).
          { rewrite WW. rewrite <- GW. field. lra. }
          assert (gw : g = w) by (assert (X : (g - w) * (g + w) = 0) by (ring_simplify; lra); apply Rmult_integral in X; lra).
          rewrite Y1, Y2, Y3, gw. repeat split; field; lra. }
  clear - A Len. revert A. generalize (map unp ms), (map_length unp ms). intros qs Lqs. rewrite Len in Lqs. clear Len. revert qs Lqs. induction ps as [|p ps IH]; intros [|q qs] Lqs A; try discriminate; constructor.
  - destruct (A 0%nat p eq_refl) as (q' & Eq & H). cbn in Eq. injection Eq as <-. exact H.
  - apply IH; [cbn in Lqs; lia|]. intros i p' Ip. exact (A (Datatypes.S i) p' Ip).
Qed.
Lemma stored_velocity f ps qid i p vx vy vz : String.length qid = 10%nat -> plain qid -> free_for f qid -> nth_error ps i = Some p ->
  rval (write_particle f ps qid) "prt_" qid "vr" i vx -> rval (write_particle f ps qid) "prt_" qid "vphi" i vy -> rval (write_particle f ps qid) "prt_" qid "vz" i vz ->
  vx = p_pr p / (p_mass p * wgamma p) /\ vy = p_pphi p / (p_mass p * wgamma p) /\ vz = p_pz p / (p_mass p * wgamma p).
Proof.
  intros L P F Ip A B C. assert (N : ps <> []) by (intros ->; destruct i; discriminate).
  assert (S := sets_stored f ps qid L P F N).
  assert (RV : forall nm (h : prt -> R) v, In (nm, DReal (map h ps)) (prt_sets ps) -> rval (write_particle f ps qid) "prt_" qid nm i v -> v = h p).
  { intros nm h v I (d & S1 & E1). assert (S2 := S _ I). cbn [fst snd] in S2. rewrite S2 in S1. injection S1 as <-. cbn in E1. rewrite nth_error_map, Ip in E1. cbn in E1. congruence. }
  split; [|split].
  - apply (RV "vr" (fun p => p_pr p / (p_mass p * wgamma p))); [cbn; tauto|exact A].
  - apply (RV "vphi" (fun p => p_pphi p / (p_mass p * wgamma p))); [cbn; tauto|exact B].
  - apply (RV "vz" (fun p => p_pz p / (p_mass p * wgamma p))); [cbn; tauto|exact C].
Qed.
(** the stored velocity is that of the momentum only for a marker at rest or of mass one kilogram *)
Theorem written_velocity f ps qid i p vx vy vz : String.length qid = 10%nat -> plain qid -> free_for f qid -> nth_error ps i = Some p -> 0 < p_mass p ->
  rval (write_particle f ps qid) "prt_" qid "vr" i vx -> rval (write_particle f ps qid) "prt_" qid "vphi" i vy -> rval (write_particle f ps qid) "prt_" qid "vz" i vz ->
  (momentum (p_mass p) vx vy vz (p_pr p) (p_pphi p) (p_pz p) <-> psq p = 0 \/ p_mass p = 1) /\
  (slow vx vy vz <-> psq p * (1 - p_mass p) < p_mass p * p_mass p * CONST_C2).
Proof.
  intros L P F Ip Mp A B C. destruct (stored_velocity f ps qid i p vx vy vz L P F Ip A B C) as (V5 & V6 & V7). clear A B C F L P Ip.
  assert (C2 := C2_pos).
  assert (PS : 0 <= psq p) by (unfold psq; nra).
  assert (G2 : 0 < 1 + psq p / (CONST_C2 * p_mass p)) by (assert (0 <= psq p / (CONST_C2 * p_mass p)) by (apply Rmult_le_pos; [exact PS|]; apply Rlt_le, Rinv_0_lt_compat; nra); lra).
  assert (W : 0 < wgamma p) by (apply sqrt_lt_R0; exact G2).
  assert (WW : wgamma p * wgamma p = 1 + psq p / (CONST_C2 * p_mass p)) by (apply sqrt_sqrt; lra).
  set (w := wgamma p) in *. set (m := p_mass p) in *.
  assert (VV : vx * vx + vy * vy + vz * vz = psq p / (m * m * (w * w))) by (subst vx vy vz; unfold psq; field; lra).
  assert (Mw : 0 < m * m * (w * w)) by (apply Rmult_lt_0_compat; nra).
  assert (CM : CONST_C2 * (m * m * (w * w)) = m * m * CONST_C2 + psq p * m) by (rewrite WW; field; lra).
  split; [split|].
  - intros (g & g0 & g1 & X1 & X2 & X3). destruct (Req_dec (psq p) 0) as [Z0|Z0]; [now left|right].
    assert (D : (g / w - 1) * psq p = 0).
    { unfold psq. transitivity ((g * m * vx - p_pr p) * p_pr p + (g * m * vy - p_pphi p) * p_pphi p + (g * m * vz - p_pz p) * p_pz p); [subst vx vy vz; field; lra|].
      rewrite <- X1, <- X2, <- X3. ring. }
    apply Rmult_integral in D as [D|D]; [|contradiction].
    assert (gw : g = w) by (assert (X : g = (g / w - 1) * w + w) by (field; lra); rewrite D in X; lra).
    rewrite VV, gw in g1.
    assert (Q : w * w - psq p / (m * m * CONST_C2) = 1) by (rewrite <- g1; field; lra). rewrite WW in Q.
    assert (R0 : psq p * (m - 1) = 0).
    { transitivity ((psq p / (CONST_C2 * m) - psq p / (m * m * CONST_C2)) * (m * m * CONST_C2)); [field; lra|]. replace (psq p / (CONST_C2 * m) - psq p / (m * m * CONST_C2)) with 0 by lra. ring. }
    apply Rmult_integral in R0 as [R0|R0]; [contradiction|lra].
  - intros H. exists w. split; [exact W|]. split; [|subst vx vy vz; repeat split; field; lra].
    rewrite VV. transitivity (w * w - psq p / (m * m * CONST_C2)); [field; lra|]. rewrite WW. destruct H as [H|H]; rewrite H; field; lra.
  - unfold slow. rewrite VV. split; intros H.
    + apply (Rmult_lt_compat_r (m * m * (w * w))) in H; [|exact Mw]. unfold Rdiv at 1 in H. rewrite Rmult_assoc, Rinv_l, Rmult_1_r in H by lra. lra.
    + apply Rmult_lt_reg_r with (m * m * (w * w)); [exact Mw|]. unfold Rdiv at 1. rewrite Rmult_assoc, Rinv_l, Rmult_1_r by lra. lra.
Qed.
(** nothing is written over a group that exists *)
Theorem no_overwrite f ps qid : String.length qid = 10%nat -> plain qid -> grp f ["marker"] = true -> taken f ["marker"; "prt_" ++ qid] = true -> write_particle f ps qid = f.
Proof.
  intros L P G T. unfold write_particle. rewrite (prt_path qid L). assert (E : found f "/marker/" = true) by (unfold found; cbn; rewrite G; reflexivity).
  rewrite E. unfold found. rewrite prt_comps by exact P. unfold taken in T. rewrite T. reflexivity.
Qed.
Lemma fold_write_none G nm l : (forall x, In x l -> fst x = nm -> dlength (snd x) = 0%nat) -> forall f,
  dst (fold_left (fun f x => write_ds f G x) l f) (G ++ [nm])%list = dst f (G ++ [nm])%list.
Proof.
  induction l as [|y l IH]; intros H f; [reflexivity|]. cbn [fold_left]. rewrite IH by (intros; apply H; [now right|assumption]).
  unfold write_ds. destruct (Nat.eqb_spec (dlength (snd y)) 0) as [|D]; [reflexivity|]. destruct (_ || _); [reflexivity|]. cbn.
  destruct path_dec as [E|]; [|reflexivity]. apply app_inj_tail in E as [_ E]. exfalso. apply D, H; [now left|now symmetry].
Qed.
(** an empty list of markers cannot be read back *)
Theorem empty_unreadable f qid : String.length qid = 10%nat -> plain qid -> free_for f qid -> ~ exists ms, snd (read_particle (write_particle f [] qid) qid) = Ok ms.
Proof.
  intros L P (T & K & M) E. apply particles_iff in E as (k & _ & F); [|exact L|exact P].
  unfold prt_names in F. inversion_clear F as [|? ? (d & S & _) _]. apply orb_false_iff in K as [Kg Kd].
  unfold stored, write_particle in S. rewrite (prt_path qid L) in S.
  set (f1 := if found f "/marker/" then f else add_group f ["marker"]) in S.
  assert (G1 : forall p, p <> ["marker"] -> grp f1 p = grp f p) by (intros p D; unfold f1; destruct (found f _); [reflexivity|]; cbn; destruct path_dec; congruence).
  assert (D1 : dst f1 = dst f) by (unfold f1; destruct (found f _); reflexivity).
  assert (Fd : found f1 ("/marker/prt_" ++ qid) = false).
  { unfold found. rewrite prt_comps, G1, D1 by (auto; discriminate). rewrite Kg, Kd. reflexivity. }
  rewrite Fd, prt_comps in S by exact P.
  destruct (T ["marker"; "prt_" ++ qid] "r" Kg) as [_ B].
  assert (X := fold_write_none ["marker"; "prt_" ++ qid] "r" (prt_sets [])).
  change ["marker"; "prt_" ++ qid; "r"] with (List.app ["marker"; "prt_" ++ qid] ["r"]) in S. rewrite X in S.
  - cbn [dst add_group] in S. rewrite D1, B in S. discriminate.
  - intros x I Ex. unfold prt_sets in I. cbn [map List.length] in I. destruct I as [<-|I]; [discriminate Ex|].
    repeat (destruct I as [<-|I]; [reflexivity|]). destruct I.
Qed.
