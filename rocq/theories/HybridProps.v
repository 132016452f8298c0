(** C55: hybrid mode. *)
From Coq Require Import ZArith List Bool Arith Lia.
From Verif Require Import QueueModel QueueProofs QueueProps EndcondModel HybridModel HybridProofs.
Import ListNotations.

(** For every interleaving of both phases: exactly the markers that stopped with the hybrid
    flag alone and have no wall between guiding centre and particle are simulated as
    particles, from the state the first phase left and with no end condition; all others
    keep their result, up to the hybrid flag. *)
Theorem hybrid_handover : forall P DG DF n T W hit set_tile (loadG : entry P -> @loaded DG) storeG simG (loadF : entry P -> @loaded DF) storeF simF qs fin,
  good_queue n false qs -> 0 < T -> 0 < W -> ids_kept loadG storeG simG -> (forall e, e_err e <> 0%Z -> loadF e = LEarly (e_err e)) ->
  hybrid_run n T W hit set_tile loadG storeG simG loadF storeF simF qs fin ->
  exists mid, (forall k, k < n -> outcome false loadG storeG simG (qs k) (mid k)) /\
  exists both, (both = true <-> exists k, k < n /\ hands_over hit (mid k)) /\
  forall k, k < n ->
    (hands_over hit (mid k) -> outcome true loadF storeF simF (with_endcond (mid k) 0) (fin k)) /\
    (e_endcond (mid k) = endcond_hybrid -> (0 < hit (mid k))%Z ->
       fin k = mkentry (e_id (mid k)) (final_flags both (Z.lor endcond_hybrid endcond_wall)) (e_err (mid k)) (set_tile (hit (mid k)) (e_pay (mid k)))) /\
    (e_endcond (mid k) <> endcond_hybrid -> e_endcond (mid k) <> 0%Z -> fin k = with_endcond (mid k) (final_flags both (e_endcond (mid k)))) /\
    (e_endcond (mid k) = 0%Z -> e_err (mid k) <> 0%Z -> fin k = mid k).
Proof. exact @hybrid_spec. Qed.
Print Assumptions hybrid_handover.

(** Three markers: one handed over, one with a wall in between, one ended otherwise. *)
Definition hx_hit (e : entry Z) : Z := if (e_id e =? 11)%Z then 5 else 0.
Definition hx_tile (t p : Z) : Z := (1000 * t + p)%Z.
Definition hx_loadG (e : entry Z) : @loaded Z := if (e_err e =? 0)%Z then LOk 2%Z else LEarly (e_err e).
Definition hx_storeG (d : Z) (e : entry Z) : entry Z := mkentry (e_id e) (if (e_id e <? 12)%Z then 512 else 1) 0 (e_pay e + 10)%Z.
Definition hx_loadF (e : entry Z) : @loaded Z := if (e_err e =? 0)%Z then LOk 3%Z else LEarly (e_err e).
Definition hx_storeF (d : Z) (e : entry Z) : entry Z := mkentry (e_id e) 2 0 (e_pay e + 100)%Z.
Definition hx_queue (ids : nat -> Z) (k : nat) : entry Z := mkentry (ids k) 0 0 1%Z.
Lemma hx_run : forall n ids sch, let g := run n 1 1 false hx_loadG hx_storeG ex_sim sch (init (hx_queue ids)) in
  let c := cleared hx_hit hx_tile (ents (snd g)) in let f := run n 1 1 true hx_loadF hx_storeF ex_sim sch (init c) in
  pcs (snd g) 0 = PDone -> pcs (snd f) 0 = PDone -> 0 < count_new hx_hit hx_tile n (ents (snd g)) ->
  hybrid_run n 1 1 hx_hit hx_tile hx_loadG hx_storeG (simr ex_sim) hx_loadF hx_storeF (simr ex_sim) (hx_queue ids) (ents (snd f)).
Proof.
  intros n ids sch g c f D1 D2 C. apply (hr_both n 1 1 hx_hit hx_tile hx_loadG hx_storeG (simr ex_sim) hx_loadF hx_storeF (simr ex_sim) (hx_queue ids) (fst g) (snd g) (fst f) (snd f)); auto.
  - apply run_exec.
  - intros t Ht. replace t with 0 by lia. exact D1.
  - apply run_exec.
  - intros t Ht. replace t with 0 by lia. exact D2.
Qed.
Definition hx_ids (k : nat) : Z := Z.of_nat k + 10.
Example hybrid_example : exists fin, hybrid_run 3 1 1 hx_hit hx_tile hx_loadG hx_storeG (simr ex_sim) hx_loadF hx_storeF (simr ex_sim) (hx_queue hx_ids) fin /\
  map fin [0; 1; 2] = [mkentry 10 2 0 111%Z; mkentry 11 8 0 5011%Z; mkentry 12 1 0 11%Z].
Proof. eexists. split; [apply (hx_run 3 hx_ids (repeat 0 60)); vm_compute; auto; lia|vm_compute; reflexivity]. Qed.
Example hybrid_example_good : good_queue 3 false (hx_queue hx_ids) /\ ids_kept hx_loadG hx_storeG (simr ex_sim) /\ (forall e, e_err e <> 0%Z -> hx_loadF e = LEarly (e_err e)).
Proof.
  split; [split; [intros k _; cbn; unfold hx_ids; lia|right; reflexivity]|]. split; [intros e d0 d _ _; reflexivity|].
  intros e H. unfold hx_loadF. apply Z.eqb_neq in H. now rewrite H.
Qed.
(** with nobody to hand over, a marker with a wall in between keeps both flags *)
Theorem hybrid_flag_always_cleared_refuted : exists fin,
  hybrid_run 1 1 1 hx_hit hx_tile hx_loadG hx_storeG (simr ex_sim) hx_loadF hx_storeF (simr ex_sim) (hx_queue (fun _ => 11%Z)) fin /\
  fin 0 = mkentry 11 (Z.lor endcond_hybrid endcond_wall) 0 5011%Z.
Proof.
  set (g := run 1 1 1 false hx_loadG hx_storeG ex_sim (repeat 0 60) (init (hx_queue (fun _ => 11%Z)))).
  exists (screened hx_hit hx_tile (ents (snd g))). split; [|vm_compute; reflexivity].
  apply (hr_gc_only 1 1 1 hx_hit hx_tile hx_loadG hx_storeG (simr ex_sim) hx_loadF hx_storeF (simr ex_sim) (hx_queue (fun _ => 11%Z)) (fst g) (snd g)); [apply run_exec| |vm_compute; reflexivity].
  intros t Ht. replace t with 0 by lia. vm_compute. reflexivity.
Qed.
Print Assumptions hybrid_flag_always_cleared_refuted.
