(** Reading the inputs *)
From Coq Require Import Reals ZArith List String Bool Lia Lra.
From Verif Require Import MainModel HdfModel HmkModel OptModel HinModel HinProofs.
Import ListNotations.
Local Open Scope string_scope.
Local Open Scope R_scope.

(** What the initialisation of each input receives *)
(** a complete group is accepted; every parameter of the initialisation is the dataset meant for it, in SI units *)
Theorem inputs_delivered : forall g r sh tab f qid c s, In (g, r, sh, tab) inputs -> complete f g qid c sh -> exists res, read_input r f qid s = Ok res /\ delivered c tab res.
Proof. exact input_delivered. Qed.
Print Assumptions inputs_delivered.
(** nothing has a default: a read that succeeds found every dataset *)
Theorem inputs_missing_refused : forall g r sh tab f qid s res, In (g, r, sh, tab) inputs -> read_input r f qid s = Ok res ->
  forall ds b z, In (ds, b, z) sh -> exists d, lookup f (g ++ ds) qid = Some d.
Proof. exact input_missing. Qed.
Print Assumptions inputs_missing_refused.

(** ** A file with two radial points, electrons and one ion species *)
Definition demo_i (n : string) : list Z :=
  if String.eqb n "nion" then [1%Z] else if String.eqb n "nrho" then [2%Z] else if String.eqb n "anum" then [2%Z] else [1%Z].
Definition demo_r (n : string) : list R :=
  if String.eqb n "mass" then [2] else if String.eqb n "rho" then [0; 1] else if String.eqb n "etemperature" then [1000; 10] else if String.eqb n "itemperature" then [500; 20] else [3; 1].
Definition demo_c : content := mkcontent demo_i demo_r.
Definition whole (n : string) : bool := existsb (String.eqb n) ["nion"; "znum"; "anum"; "charge"; "nrho"].
Definition demo_file : h5 := mkh5 (fun _ => true) (fun _ _ => None) (fun p => match p with [_; _; n] => Some (if whole n then DInt (demo_i n) else DReal (demo_r n)) | _ => None end).
Example demo_complete : complete demo_file "/plasma/plasma_1D_XXXXXXXXXX/" "0123456789" demo_c s_P1.
Proof.
  intros ds b z I. cbn [s_P1 s_ions app In i0 r0 ii rr] in I.
  repeat (destruct I as [I|I]; [injection I as <- <- <-; eexists; split; [reflexivity|]; cbn; repeat split; repeat constructor; lia|]). destruct I.
Qed.
(** the electron temperature arrives in joules, the masses start with that of the electron *)
Example demo_read s : exists res, read_input rplasma_1D demo_file "0123456789" s = Ok res /\
  In ("Te", WR "etemperature" Uev) t_P1 /\ delivered demo_c t_P1 res.
Proof.
  destruct (inputs_delivered "/plasma/plasma_1D_XXXXXXXXXX/" rplasma_1D s_P1 t_P1 demo_file "0123456789" demo_c s) as (res & R & D); [|apply demo_complete|].
  - unfold inputs. repeat (first [left; reflexivity | right]).
  - exists res. split; [exact R|]. split; [|exact D]. unfold t_P1, t_prof, t_ions. cbn [app]. do 7 right. left. reflexivity.
Qed.
(** without the vtor dataset the read is refused or undefined *)
Definition demo_short : h5 := mkh5 (fun _ => true) (fun _ _ => None) (fun p => match p with [_; _; n] => if String.eqb n "vtor" then None else Some (if whole n then DInt (demo_i n) else DReal (demo_r n)) | _ => None end).
Example demo_refused s res : read_input rplasma_1D demo_short "0123456789" s <> Ok res.
Proof.
  intros E. destruct (inputs_missing_refused "/plasma/plasma_1D_XXXXXXXXXX/" rplasma_1D s_P1 t_P1 demo_short "0123456789" s res) with (ds := "vtor") (b := false) (z := Prod 1 ["nrho"]) as [d D]; try exact E.
  - unfold inputs. repeat (first [left; reflexivity | right]).
  - unfold s_P1, s_ions. cbn [app]. do 7 right. left. reflexivity.
  - discriminate D.
Qed.
