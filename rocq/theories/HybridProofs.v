(** Proofs about the hybrid hand-over. *)
From Coq Require Import ZArith List Bool Arith Lia.
From Verif Require Import QueueModel QueueProofs QueueProps EndcondModel HybridModel.
Import ListNotations.

Section hybrid.
Context {P DG DF : Type} (n T W : nat) (hit : entry P -> Z) (set_tile : Z -> P -> P)
  (loadG : entry P -> @loaded DG) (storeG : DG -> entry P -> entry P) (simG : DG -> DG -> bool -> Prop)
  (loadF : entry P -> @loaded DF) (storeF : DF -> entry P -> entry P) (simF : DF -> DF -> bool -> Prop).
(** spec: the number of markers handed over *)
Definition hands_over (e : entry P) : Prop := e_endcond e = endcond_hybrid /\ (hit e <= 0)%Z.
Lemma count_pos : forall es, 0 < count_new hit set_tile n es <-> exists k, k < n /\ hands_over (es k).
Proof.
  intros es. unfold count_new, hands_over.
  assert (S : forall e, snd (screen hit set_tile e) = true <-> e_endcond e = endcond_hybrid /\ (hit e <= 0)%Z).
  { intros e. unfold screen. destruct (Z.eqb_spec (e_endcond e) endcond_hybrid); [|cbn; split; [discriminate|tauto]].
    destruct (Z.ltb_spec 0 (hit e)); cbn; split; auto; try lia; try discriminate. }
  split.
  - intros H. destruct (filter _ (seq 0 n)) as [|k l] eqn:E; [cbn in H; lia|]. assert (I : In k (k :: l)) by now left. rewrite <- E in I. apply filter_In in I. destruct I as [I J].
    apply in_seq in I. exists k. split; [lia|]. now apply S.
  - intros (k & K & H). assert (I : In k (filter (fun i => snd (screen hit set_tile (es i))) (seq 0 n))). { apply filter_In. split; [apply in_seq; lia|now apply S]. }
    destruct (filter _ _); [destruct I|cbn; lia].
Qed.
(** spec: final flags of a marker that is not handed over *)
Definition without_hybrid (c : Z) : Z := Z.ldiff c endcond_hybrid.
Lemma lxor_ldiff : forall c, Z.land c endcond_hybrid <> 0%Z -> Z.lxor c endcond_hybrid = without_hybrid c.
Proof.
  intros c H. unfold without_hybrid. apply Z.bits_inj'. intros i I. rewrite Z.lxor_spec, Z.ldiff_spec.
  destruct (Z.eq_dec i 9) as [->|NE].
  - assert (B : Z.testbit c 9 = true).
    { destruct (Z.testbit c 9) eqn:B; auto. exfalso. apply H. apply Z.bits_inj'. intros j J. rewrite Z.land_spec, Z.bits_0.
      change endcond_hybrid with (2 ^ 9)%Z. rewrite Z.pow2_bits_eqb by lia. destruct (Z.eqb_spec 9 j) as [<-|]; [now rewrite B|apply andb_false_r]. }
    rewrite B. reflexivity.
  - change endcond_hybrid with (2 ^ 9)%Z. rewrite Z.pow2_bits_eqb by lia. destruct (Z.eqb_spec 9 i) as [E|]; [congruence|]. now rewrite xorb_false_r, andb_true_r.
Qed.
Lemma clear_spec : forall e : entry P, clear e = with_endcond e (without_hybrid (e_endcond e)).
Proof.
  intros e. unfold clear. destruct (Z.eqb_spec (Z.land (e_endcond e) endcond_hybrid) 0) as [E|E]; cbn [negb].
  - unfold without_hybrid. assert (D : Z.ldiff (e_endcond e) endcond_hybrid = e_endcond e).
    { rewrite <- (Z.lor_ldiff_and (e_endcond e) endcond_hybrid) at 2. now rewrite E, Z.lor_0_r. }
    rewrite D. now destruct e.
  - now rewrite lxor_ldiff.
Qed.
(** what the guiding-centre phase leaves in a marker's entry when it keeps its identity *)
Definition ids_kept : Prop := forall e d0 d, loadG e = LOk d0 -> simulated simG d0 d -> e_id (storeG d e) = e_id e.
Lemma outcome_id : forall e e', ids_kept -> outcome false loadG storeG simG e e' -> e_id e' = e_id e.
Proof. intros e e' K O. destruct O as [H|x H L|d0 d H L S]; [discriminate|reflexivity|eapply K; eauto]. Qed.
Definition final_flags (both : bool) (c : Z) : Z := if both then without_hybrid c else c.
Lemma hybrid_spec : forall qs fin, good_queue n false qs -> 0 < T -> 0 < W -> ids_kept -> (forall e, e_err e <> 0%Z -> loadF e = LEarly (e_err e)) ->
  hybrid_run n T W hit set_tile loadG storeG simG loadF storeF simF qs fin ->
  exists mid, (forall k, k < n -> outcome false loadG storeG simG (qs k) (mid k)) /\
  exists both, (both = true <-> exists k, k < n /\ hands_over (mid k)) /\
  forall k, k < n ->
    (hands_over (mid k) -> outcome true loadF storeF simF (with_endcond (mid k) 0) (fin k)) /\
    (e_endcond (mid k) = endcond_hybrid -> (0 < hit (mid k))%Z ->
       fin k = mkentry (e_id (mid k)) (final_flags both (Z.lor endcond_hybrid endcond_wall)) (e_err (mid k)) (set_tile (hit (mid k)) (e_pay (mid k)))) /\
    (e_endcond (mid k) <> endcond_hybrid -> e_endcond (mid k) <> 0%Z -> fin k = with_endcond (mid k) (final_flags both (e_endcond (mid k)))) /\
    (e_endcond (mid k) = 0%Z -> e_err (mid k) <> 0%Z -> fin k = mid k).
Proof.
  intros qs fin G HT HW IK LF R.
  assert (SCR : forall es k, hands_over (es k) -> screened hit set_tile es k = es k).
  { intros es k [H1 H2]. unfold screened, screen. rewrite H1, Z.eqb_refl. destruct (Z.ltb_spec 0 (hit (es k))); [lia|reflexivity]. }
  assert (SCW : forall es k, e_endcond (es k) = endcond_hybrid -> (0 < hit (es k))%Z ->
    screened hit set_tile es k = mkentry (e_id (es k)) (Z.lor endcond_hybrid endcond_wall) (e_err (es k)) (set_tile (hit (es k)) (e_pay (es k)))).
  { intros es k H1 H2. unfold screened, screen. rewrite H1, Z.eqb_refl. apply Z.ltb_lt in H2. rewrite H2. reflexivity. }
  assert (SCO : forall es k, e_endcond (es k) <> endcond_hybrid -> screened hit set_tile es k = es k).
  { intros es k H1. unfold screened, screen. apply Z.eqb_neq in H1. now rewrite H1. }
  assert (WE : forall e : entry P, with_endcond e (e_endcond e) = e) by (intros []; reflexivity).
  destruct R as [trG sG EG DG0 C0|trG sG trF sF EG DG0 C0 EF DF0].
  - exists (ents sG). split; [intros k K; exact (proj2 (queue_every_marker_once n T W false loadG storeG simG qs trG sG G HT HW EG DG0 k K))|].
    assert (NO : ~ exists k, k < n /\ hands_over (ents sG k)). { intros H. apply count_pos in H. lia. }
    exists false. split; [split; [discriminate|intros H; elim NO; exact H]|]. intros k K. split; [intros H; elim NO; eauto|]. split; [intros; now apply SCW|]. split.
    + intros H1 H2. cbn [final_flags]. rewrite WE. now apply SCO.
    + intros H1 H2. apply SCO. rewrite H1. discriminate.
  - exists (ents sG). assert (OG : forall k, k < n -> outcome false loadG storeG simG (qs k) (ents sG k)).
    { intros k K; exact (proj2 (queue_every_marker_once n T W false loadG storeG simG qs trG sG G HT HW EG DG0 k K)). }
    split; [exact OG|]. exists true. split; [split; [intros _; now apply count_pos|auto]|].
    set (es := cleared hit set_tile (ents sG)) in *.
    assert (ID : forall k, e_id (es k) = e_id (ents sG k)).
    { intros k. unfold es, cleared. rewrite clear_spec. cbn [with_endcond e_id]. unfold screened, screen. destruct (_ =? _)%Z; [destruct (_ <? _)%Z|]; reflexivity. }
    assert (G2 : good_queue n true es).
    { split; [|now left]. intros k K. rewrite ID, (outcome_id _ _ IK (OG k K)). now apply (proj1 G). }
    intros k K. pose proof (proj2 (queue_every_marker_once n T W true loadF storeF simF es trF sF G2 HT HW EF DF0 k K)) as O.
    assert (EK : es k = with_endcond (screened hit set_tile (ents sG) k) (without_hybrid (e_endcond (screened hit set_tile (ents sG) k)))) by apply clear_spec.
    assert (KEEP : e_endcond (es k) <> 0%Z -> ents sF k = es k).
    { intros NZ. now apply (queue_ended_marker_untouched n T W loadF storeF simF es trF sF k G2 HT HW EF DF0 K NZ). }
    split; [|split; [|split]].
    + intros H. rewrite EK, (SCR _ _ H), (proj1 H) in O. exact O.
    + intros H1 H2. rewrite (SCW _ _ H1 H2) in EK. cbn [e_endcond e_id e_err e_pay with_endcond] in EK. rewrite KEEP; [exact EK|]. rewrite EK. discriminate.
    + intros H1 H2. rewrite (SCO _ _ H1) in EK. cbn [final_flags].
      assert (NZ : without_hybrid (e_endcond (ents sG k)) <> 0%Z).
      { intros E. unfold without_hybrid in E. assert (L := Z.lor_ldiff_and (e_endcond (ents sG k)) endcond_hybrid). rewrite E, Z.lor_0_l in L.
        assert (B : Z.land (e_endcond (ents sG k)) endcond_hybrid = 0%Z \/ Z.land (e_endcond (ents sG k)) endcond_hybrid = endcond_hybrid).
        { destruct (Z.testbit (e_endcond (ents sG k)) 9) eqn:TB; [right|left]; apply Z.bits_inj'; intros j J; rewrite Z.land_spec; change endcond_hybrid with (2 ^ 9)%Z; rewrite ?Z.bits_0, ?Z.pow2_bits_eqb by lia;
            destruct (Z.eqb_spec 9 j) as [<-|]; rewrite ?TB, ?andb_false_r; reflexivity. }
        destruct B as [B|B]; congruence. }
      rewrite KEEP; [exact EK|]. rewrite EK. exact NZ.
    + intros H1 H2. assert (H3 : e_endcond (ents sG k) <> endcond_hybrid) by (rewrite H1; discriminate).
      rewrite (SCO _ _ H3), H1 in EK. change (without_hybrid 0) with 0%Z in EK. rewrite <- H1, WE in EK.
      assert (Z0 : e_endcond (es k) = 0%Z) by (rewrite EK; exact H1). assert (ER : e_err (es k) <> 0%Z) by (rewrite EK; exact H2).
      destruct (queue_failed_load_reported n T W true loadF storeF simF es trF sF k (e_err (es k)) G2 HT HW EF DF0 K Z0 (or_introl (LF _ ER))) as [F _].
      rewrite F, <- EK. destruct (es k); reflexivity.
Qed.
End hybrid.
