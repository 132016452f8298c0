(** Reading the neutral beam injectors *)
From Coq Require Import Reals ZArith List String DecimalString Bool Lia Lra.
From Verif Require Import MainModel HdfModel HmkModel HinModel HinProofs HuseProofs NbiModel HnbiModel HnbiProofs.
Import ListNotations.
Local Open Scope string_scope.
Local Open Scope R_scope.

(** The injectors of the file *)
(** every injector of a complete group has the properties and beamlets of its own datasets, in SI units *)
Theorem injectors_from_file : forall f qid n c m, (Z.of_nat n <= 2147483647)%Z -> nbi_complete f qid n c ->
  exists l, hdf5_nbi_init f qid m = Ok l /\ List.length l = n /\ forall i id x, nth_error l i = Some (id, x) -> injector_of (c i) id x.
Proof. exact nbi_read. Qed.
Print Assumptions injectors_from_file.
(** a read that succeeds found every dataset of every injector *)
Theorem injectors_missing_refused : forall f qid m l, hdf5_nbi_init f qid m = Ok l -> forall i, (i < List.length l)%nat -> forall ds b z, In (ds, b, z) s_injector -> exists d, lookup f (injector_group i ++ ds) qid = Some d.
Proof. exact nbi_missing. Qed.
Print Assumptions injectors_missing_refused.

(** ** Two injectors, with two beamlets and one beamlet *)
Definition demo_i (k : nat) (n : string) : list Z := if String.eqb n "ids" then [Z.of_nat (7 + k)] else if String.eqb n "nbeamlet" then [Z.of_nat (2 - k)] else [1%Z].
Definition demo_r (k : nat) (n : string) : list R :=
  if String.eqb n "efrac" then [1 / 2; 1 / 4; 1 / 4] else if String.eqb (substring 0 7 n) "beamlet" then (match k with O => [INR (String.length n); 2] | _ => [5] end)
  else if String.eqb n "divhalofrac" then [0] else [3].
Definition demo_c (k : nat) : content := mkcontent (demo_i k) (demo_r k).
Definition whole (n : string) : bool := existsb (String.eqb n) ["ids"; "nbeamlet"; "anum"; "znum"].
Definition demo_d (k : nat) (n : string) : dset := if whole n then DInt (demo_i k n) else DReal (demo_r k n).
Definition demo_file : h5 := mkh5 (fun _ => true) (fun _ _ => None) (fun p => match p with
  | [_; _; n] => if String.eqb n "ninj" then Some (DInt [2%Z]) else None
  | [_; _; g; n] => if String.eqb g "inj1" then Some (demo_d 0 n) else if String.eqb g "inj2" then Some (demo_d 1 n) else None
  | _ => None end).
Example demo_complete : nbi_complete demo_file "0123456789" 2 demo_c.
Proof.
  split; [reflexivity|]. split; [eexists; split; reflexivity|]. intros i I.
  assert (i = 0 \/ i = 1)%nat as [E|E] by lia; subst i; (split; [|cbn; lia]); intros ds b z H; cbn [s_injector In i0 r0 rr] in H;
    repeat (destruct H as [H|H]; [injection H as <- <- <-; eexists; split; [reflexivity|]; cbn; repeat split; repeat constructor; lia|]); destruct H.
Qed.
(** the second injector: identifier, first beamlet, energy in joules, halo divergence that can be divided by *)
Example demo_second m : exists l x, hdf5_nbi_init demo_file "0123456789" m = Ok l /\ nth_error l 1 = Some (8%Z, x) /\
  nbl (ibl x) = 1%nat /\ bx (ibl x) 0 = 5 /\ energy x = 3 * 1.602176565e-19 /\ 0 < halo_h x.
Proof.
  destruct (injectors_from_file demo_file "0123456789" 2 demo_c m ltac:(lia) demo_complete) as (l & R & L & H).
  destruct l as [|a [|[id x] [|]]]; try discriminate L. exists [a; (id, x)], x. split; [exact R|]. specialize (H 1%nat id x eq_refl). destruct H.
  assert (N : nbl (ibl x) = 1%nat) by (apply Nat2Z.inj; rewrite io_n; reflexivity).
  split; [rewrite io_id; reflexivity|]. split; [exact N|]. split; [|split].
  - destruct (io_beamlets 0%nat) as [A _]; [lia|]. rewrite A. reflexivity.
  - rewrite io_energy. reflexivity.
  - apply io_nohalo. reflexivity.
Qed.
