(** Reading the simulation options *)
From Coq Require Import Reals ZArith List String Bool Lia Lra.
From Verif Require Import MainModel HdfModel HmkModel EndcondModel DistModel HoutModel OptModel OptProofs.
Import ListNotations.
From Verif Require EndcondProofs HoutProofs.
Local Open Scope string_scope.
Local Open Scope R_scope.

(** The options arrive where they are used *)
(** a complete file is accepted; every option ends in its member, in SI units, and selects its end conditions *)
Theorem options_applied : forall f qid v a s, file_ok f qid v a -> exists s', options_read f qid s = Ok s' /\ applied v a s'.
Proof. exact options_ok. Qed.
Print Assumptions options_applied.
(** nothing has a default: a read that succeeds found every option, and those of each distribution that is switched on *)
Theorem options_missing_refused : forall f qid v s s', options_read f qid s = Ok s' ->
  (forall n, In n base_names -> exists d, lookup f ("/options/opt_XXXXXXXXXX/" ++ n) qid = Some d) /\
  (forall t n, good f qid v (collect t) -> on_ (v (collect t)) -> In n (axis_names t) -> exists d, lookup f ("/options/opt_XXXXXXXXXX/" ++ n) qid = Some d).
Proof. exact options_needed. Qed.
Print Assumptions options_missing_refused.
(** the distribution written at the end has the bins and limits that were asked for *)
Theorem options_dist_edges : forall v a s' t h, applied v a s' -> on_ (v (collect t)) -> (forall n, In n (nbin_names t) -> 1 <= v n) ->
  Forall2 (edge_spec v (edge_unit t)) (axis_tab t) (hf_edges (dist_write t (axes_of t s') h)).
Proof. exact options_to_edges. Qed.
Print Assumptions options_dist_edges.

(** Findings *)
(** finding: unless ENDCOND_IONIZED is 2, a marker beyond the toroidal limit stops although ENDCOND_MAXORBS asks for both limits *)
Theorem options_torandpol_refuted : forall v a s' ki kf tm q ekin T hit nb, applied v a s' -> 1 <= v "ENDCOND_MAXORBS" -> ~ (2 <= v "ENDCOND_IONIZED" < 3) ->
  reals s' "endcond_max_tororb" < Rabs (q_phi q) -> EndcondProofs.met (endcond_opts s') ki kf tm q ekin T hit nb EndcondProofs.Tormax.
Proof. exact options_either. Qed.
Print Assumptions options_torandpol_refuted.
(** finding: ENDCOND_IONIZED = 2 makes both limits necessary *)
Theorem options_torandpol_ionized : forall v a s' ki kf tm q ekin T hit, applied v a s' -> 2 <= v "ENDCOND_IONIZED" < 3 ->
  EndcondProofs.met (endcond_opts s') ki kf tm q ekin T hit None EndcondProofs.Tormax -> reals s' "endcond_max_polorb" < Rabs (theta kf).
Proof. exact options_both. Qed.
Print Assumptions options_torandpol_ionized.
(** finding: with thirty toroidal planes, the number of planes is what the struct held before *)
Theorem options_thirty_planes_refuted : forall f qid v a s z, (forall n, In n ["ORBITWRITE_MODE"; "ORBITWRITE_NPOINT"; "ORBITWRITE_INTERVAL"] -> good f qid v n) ->
  (forall n, In n ["ORBITWRITE_MODE"; "ORBITWRITE_NPOINT"] -> fits (v n)) ->
  goodarr f qid a "ORBITWRITE_TOROIDALANGLES" -> List.length (a "ORBITWRITE_TOROIDALANGLES") = 30%nat ->
  (forall x, In x (a "ORBITWRITE_TOROIDALANGLES") -> 0 <= x < 360) ->
  goodarr f qid a "ORBITWRITE_POLOIDALANGLES" -> (List.length (a "ORBITWRITE_POLOIDALANGLES") < 30)%nat ->
  goodarr f qid a "ORBITWRITE_RADIALDISTANCES" -> (List.length (a "ORBITWRITE_RADIALDISTANCES") < 30)%nat ->
  ints s "ntoroidalplots" = z -> (0 <= z)%Z ->
  match read_diagorb f qid s with Ok s' => (z <= 30)%Z /\ ints s' "ntoroidalplots" = z | Rejected => False | Overflow => (30 < z)%Z end.
Proof. exact options_thirty. Qed.
Print Assumptions options_thirty_planes_refuted.

(** ** A file *)
Definition demo_z (n : string) : Z :=
  if String.eqb n "ENDCOND_MAXORBS" then 2 else if String.eqb n "ENDCOND_MAX_TOROIDALORBS" then 10 else if String.eqb n "ENDCOND_MAX_POLOIDALORBS" then 20
  else if String.eqb n "ENABLE_DIST_COM" then 1 else if String.eqb n "SIM_MODE" then 2
  else if String.eqb n "DIST_NBIN_MU" then 5 else if String.eqb n "DIST_MAX_MU" then 3 else 0.
Definition demo_file : h5 := mkh5 (fun _ => true) (fun _ _ => None) (fun p => match p with [_; _; n] => Some (DInt [demo_z n]) | _ => None end).
Definition demo_v (n : string) : R := IZR (demo_z n).
Lemma off x : IZR x = 0 -> ~ on_ (IZR x). Proof. intros E [A|A]; rewrite E in A; lra. Qed.
Example demo_ok a : file_ok demo_file "0123456789" demo_v a.
Proof.
  assert (G : forall l, forallb (fun n => match lookup demo_file ("/options/opt_XXXXXXXXXX/" ++ n) "0123456789" with Some (DInt [z]) => Z.eqb z (demo_z n) | _ => false end) l = true -> forall n, In n l -> good demo_file "0123456789" demo_v n).
  { intros l F n I. rewrite forallb_forall in F. specialize (F n I). unfold good. destruct lookup as [d|]; [|discriminate]. exists d. split; [reflexivity|].
    destruct d as [|[|z [|]]]; try discriminate. apply Z.eqb_eq in F. subst z. reflexivity. }
  assert (Fi : forall n, fits (demo_v n)).
  { intros n. unfold demo_v, demo_z. repeat match goal with |- context [if ?c then _ else _] => destruct c end; unfold fits; lra. }
  constructor.
  - apply G. reflexivity.
  - intros n _. apply Fi.
  - intros n [<-|[<-|[]]]; unfold demo_v; cbn; rewrite Rabs_right; lra.
  - intros t O. split; [|intros n _; apply Fi]. destruct t; try (exfalso; revert O; apply off; reflexivity). apply G. reflexivity.
  - intros O. exfalso. revert O. apply off. reflexivity.
  - intros O. exfalso. revert O. apply off. reflexivity.
Qed.
(** with this file: both limits were asked for, a marker with eleven toroidal orbits and no poloidal one stops *)
Example demo_stops s ki kf tm q ekin T hit nb : Rabs (q_phi q) = 2 * PI * 11 ->
  exists s', options_read demo_file "0123456789" s = Ok s' /\ EndcondProofs.met (endcond_opts s') ki kf tm q ekin T hit nb EndcondProofs.Tormax.
Proof.
  intros Q. destruct (options_applied demo_file "0123456789" demo_v (fun _ => []) s (demo_ok _)) as (s' & R & A). exists s'. split; [exact R|].
  apply (options_torandpol_refuted demo_v (fun _ => [])); auto.
  - unfold demo_v; cbn; lra.
  - unfold demo_v; cbn; lra.
  - rewrite Q. destruct (ap_orb _ _ _ A "endcond_max_tororb" "ENDCOND_MAX_TOROIDALORBS") as (z & W & ->); [cbn; auto|].
    destruct W as [W _]. unfold demo_v in W. cbn [demo_z String.eqb Ascii.eqb Bool.eqb] in W. pose proof PI_RGT_0. specialize (W ltac:(lra)). nra.
Qed.
