(** The command line of the beam program and the markers of each injector *)
From Coq Require Import Reals ZArith List String Bool Arith Lia Lra.
From Verif Require Import HdfModel HmkModel HinModel HinProofs HuseProofs NbiModel NbiProofs HnbiModel HnbiProofs HnbiProps MainModel MainProofs BbnModel BbnProofs.
Import ListNotations.
Local Open Scope string_scope.
Local Open Scope nat_scope.

(** Command line *)

(** every setting has the value of the last argument that names it, else its default; files as in the main program *)
Theorem bbnbi_settings : forall (atoi : string -> Z) (atof : string -> R) l b, bbnbi_read_arguments atoi atof l = Ok b ->
  is_in (commons l) (hin (common b)) /\ is_out (commons l) (hout (common b)) /\
  msize (common b) = dflt (last_of size_arg (commons l)) 0%Z atoi /\ mrank (common b) = dflt (last_of rank_arg (commons l)) 0%Z atoi /\
  desc (common b) = dflt (last_of desc_arg (commons l)) "TAG" (fun s => s) /\
  (forall k, qid (common b) k = dflt (last_of (qid_arg k) (commons l)) "" (fun s => s)) /\
  bnbi b = dflt (blast nbi_arg l) "" (fun s => s) /\ bn b = dflt (blast n_arg l) 10000%Z atoi /\
  bt1 b = dflt (blast t1_arg l) 0%R atof /\ bt2 b = dflt (blast t2_arg l) 0%R atof.
Proof. exact bread_ok. Qed.
Print Assumptions bbnbi_settings.
(** a command line is accepted exactly if all its arguments are known and every text fits *)
Theorem bbnbi_accepts_iff : forall (atoi : string -> Z) (atof : string -> R) l, (exists b, bbnbi_read_arguments atoi atof l = Ok b) <->
  (forall o, In o l -> known o /\ bfits o) /\ (forall f, is_in (commons l) f \/ is_out (commons l) f -> String.length f < 256).
Proof. exact bread_accepts. Qed.
Print Assumptions bbnbi_accepts_iff.
(** the options, neutrals, cross-sections and all other inputs cannot be chosen on the command line, though the program reads three of them *)
Theorem bbnbi_inputs_not_selectable : forall (atoi : string -> Z) (atof : string -> R) k s, k <> k_bfield -> k <> k_wall -> k <> k_plasma -> bbnbi_read_arguments atoi atof [BCommon (OQid k s)] = Rejected.
Proof. exact bread_no_choice. Qed.
Print Assumptions bbnbi_inputs_not_selectable.

(** From the command line and the file to the markers *)

(** the asked number of markers is shared among the injectors of the file by their stored power, and the markers are numbered 1, 2, ... *)
Theorem beam_markers_from_file : forall atoi atof f nq n c m l b, (Z.of_nat n <= 2147483647)%Z -> nbi_complete f nq n c -> bbnbi_read_arguments atoi atof l = Ok b ->
  (0 <= dflt (blast n_arg l) 10000 atoi)%Z -> (forall i, i < n -> (0 <= reald (c i) "power")%R) -> (exists i, i < n /\ (0 < reald (c i) "power")%R) ->
  let powers := map (fun i => reald (c i) "power") (seq 0 n) in let asked := dflt (blast n_arg l) 10000%Z atoi in
  exists ns, bbnbi_shares f nq m b = Ok (Some ns) /\ List.length ns = n /\ sumZ ns = asked /\ fair (total_power c n) asked powers ns /\
    Forall (fun k => (0 <= k)%Z) ns /\ marker_ids 0 ns = map Z.of_nat (seq 1 (Z.to_nat asked)).
Proof. exact bbnbi_markers. Qed.
Print Assumptions beam_markers_from_file.
(** injectors without power: the program divides by zero instead of refusing the input *)
Theorem beam_no_power_refuted : forall atoi atof f nq n c m l b, (Z.of_nat n <= 2147483647)%Z -> nbi_complete f nq n c -> bbnbi_read_arguments atoi atof l = Ok b ->
  n <> 0 -> (forall i, i < n -> reald (c i) "power" = 0%R) -> bbnbi_shares f nq m b = Ok None.
Proof. exact bbnbi_no_power. Qed.
Print Assumptions beam_no_power_refuted.

(** ** Examples *)
Definition toi (s : string) : Z := if String.eqb s "7" then 7 else 3.
Example demo_line_value b : bbnbi_read_arguments toi (fun _ => 1%R) [BCommon (OIn "a.h5"); BN "3"; BT2 "1"; BN "7"] = Ok b -> bn b = 7%Z /\ bt2 b = 1%R /\ bt1 b = 0%R /\ is_in [OIn "a.h5"] (hin (common b)).
Proof. intros H. apply bbnbi_settings in H. destruct H as (A & _ & _ & _ & _ & _ & _ & B & C & D). repeat split; assumption. Qed.
Example demo_line_ok : exists b, bbnbi_read_arguments toi (fun _ => 1%R) [BCommon (OIn "a.h5"); BN "3"; BT2 "1"; BN "7"] = Ok b.
Proof. eexists. reflexivity. Qed.
(** seven markers of two injectors of equal power: three and four *)
Example demo_markers m b : bbnbi_read_arguments toi (fun _ => 1%R) [BN "7"] = Ok b -> bbnbi_shares demo_file "0123456789" m b = Ok (Some [3; 4]%Z).
Proof.
  intros H. destruct (beam_markers_from_file toi (fun _ => 1%R) demo_file "0123456789" 2 demo_c m [BN "7"] b ltac:(lia) demo_complete H) as (ns & E & L & Q & F & P & _).
  - cbn. lia.
  - intros i I. change (0 <= 3)%R. lra.
  - exists 0. split; [lia|]. change (0 < 3)%R. lra.
  - rewrite E. destruct ns as [|x [|y [|]]]; try discriminate L. destruct F as [F _].
    change (IZR x <= 3 / (3 + (3 + 0)) * 7 < IZR x + 1)%R in F. change (x + (y + 0) = 7)%Z in Q.
    assert (x = 3)%Z; [|subst; f_equal; f_equal; f_equal; f_equal; lia].
    assert (IZR x < 4)%R by lra. assert (2 < IZR x)%R by lra. apply lt_IZR in H0. apply lt_IZR in H1. lia.
Qed.
