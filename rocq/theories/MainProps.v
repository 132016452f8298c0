(** The main program: command line, distribution of markers over processes, summary and array life times *)
From Coq Require Import ZArith List String Bool Arith Lia.
From Verif Require Import StateModel MpiModel MpiProofs EndcondModel EndcondProofs ErrorModel ErrorProofs Math2Model Math2Proofs MainModel MainProofs.
Import ListNotations.
Local Open Scope string_scope.
Local Open Scope nat_scope.

(** Command line *)
(** accepted arguments: every field holds the last value given for it, or the default *)
Theorem cmdline_values : forall atoi l c, read_arguments atoi l = Ok c ->
  is_in l (hin c) /\ is_out l (hout c) /\
  msize c = dflt (last_of size_arg l) 0%Z atoi /\ mrank c = dflt (last_of rank_arg l) 0%Z atoi /\
  desc c = dflt (last_of desc_arg l) "No description." (fun s => s) /\
  forall k, qid c k = dflt (last_of (qid_arg k) l) "" (fun s => s).
Proof. exact read_ok. Qed.
Print Assumptions cmdline_values.
(** exactly the arguments that are accepted without writing past an array *)
Theorem cmdline_accepts : forall atoi l, (exists c, read_arguments atoi l = Ok c) <->
  (forall o, In o l -> o <> OBad /\ fits o) /\ (forall f, is_in l f \/ is_out l f -> String.length f < 256).
Proof. exact read_accepts. Qed.
Print Assumptions cmdline_accepts.
(** exactly the arguments that are turned down *)
Theorem cmdline_rejects : forall atoi l, read_arguments atoi l = Rejected <->
  exists l1 l2, l = (l1 ++ OBad :: l2)%list /\ forall o, In o l1 -> o <> OBad /\ fits o.
Proof. exact read_rejected. Qed.
Print Assumptions cmdline_rejects.
(** the extension of a file name may be left out *)
Theorem cmdline_extension : forall s, s <> "" -> (forall b, b <> "" -> s <> b ++ ".h5") -> resolves s (s ++ ".h5") /\ resolves (s ++ ".h5") (s ++ ".h5").
Proof. exact resolves_ext. Qed.
Print Assumptions cmdline_extension.
Theorem cmdline_file_unique : forall s f g, resolves s f -> resolves s g -> f = g.
Proof. exact resolves_fun. Qed.
Print Assumptions cmdline_file_unique.
(** finding: an argument of 256 characters or more is copied past the end of its array *)
Theorem cmdline_long_refuted : forall atoi s, 256 <= String.length s -> read_arguments atoi [ODesc s] = Overflow /\ read_arguments atoi [OIn s] = Overflow /\ forall k, read_arguments atoi [OQid k s] = Overflow.
Proof. exact long_refuted. Qed.
Print Assumptions cmdline_long_refuted.
(** finding: the file ".h5" is looked up as ".h5.h5" *)
Theorem cmdline_double_extension_refuted : forall atoi, exists c, read_arguments atoi [OIn ".h5"] = Ok c /\ hin c = ".h5.h5".
Proof. exact double_ext_refuted. Qed.
Print Assumptions cmdline_double_extension_refuted.
Example cmdline_ex : exists c, read_arguments (fun _ => 4%Z) [OIn "a"; OSize "4"; OIn "b.h5"; OQid k_wall "123"] = Ok c
  /\ hin c = "b.h5" /\ hout c = "b.h5" /\ msize c = 4%Z /\ qid c k_wall = "123" /\ qid c k_mhd = "" /\ desc c = "No description.".
Proof. eexists. repeat split; reflexivity. Qed.
Example cmdline_ex_bad : read_arguments (fun _ => 4%Z) [OIn "a"; OBad] = Rejected.
Proof. reflexivity. Qed.

(** Markers *)
Section pipe.
Context {I X : Type}.
Variables (conv : I -> pstate X) (dummy : pstate X).
(** the initial states of all markers are stored, in the order of the input, whatever the number of processes *)
Theorem main_inistate : forall inp size, 1 <= size -> inistate conv dummy inp size = Some (map Some (map conv inp)).
Proof. exact (MainProofs.inistate_all conv dummy). Qed.
(** the final states are those of the processes, one block after the other *)
Theorem main_endstate_blocks : forall sim inp size, 1 <= size -> (forall r l, List.length (sim r l) = List.length l) ->
  endstate conv sim dummy inp size = Some (map Some (flat_map (fun r => sim r (prepare_markers conv inp r size)) (seq 0 size))).
Proof. exact (MainProofs.endstate_blocks conv dummy). Qed.
(** when each marker is simulated on its own, the result does not depend on the number of processes *)
Theorem main_endstate : forall f sim inp size, 1 <= size -> (forall r l, sim r l = map f l) ->
  endstate conv sim dummy inp size = Some (map Some (map f (map conv inp))).
Proof. exact (MainProofs.endstate_all conv dummy). Qed.
(** the blocks of the processes are the whole input *)
Theorem main_prepare : forall inp size, 1 <= size ->
  flat_map (fun i => prepare_markers conv inp i size) (seq 0 size) = map conv inp.
Proof. exact (MainProofs.prepare_all conv). Qed.
End pipe.
Print Assumptions main_inistate.
Print Assumptions main_endstate_blocks.
Print Assumptions main_endstate.
Print Assumptions main_prepare.
Example main_prepare_ex : forall (a b c : pstate Z), prepare_markers (fun x => x) [a; b; c] 1 2 = [b; c].
Proof. reflexivity. Qed.

(** Array life times *)
(** a successful run frees each marker array once *)
Theorem arrays_success : main_arrays true true true = Done Freed Freed Freed.
Proof. exact arrays_ok. Qed.
Print Assumptions arrays_success.
(** finding: every failure after reading the input frees an array twice or frees an uninitialised pointer *)
Theorem arrays_failure_refuted : forall r g o, main_arrays r g o = Undefined <-> r = true /\ (g = false \/ o = false).
Proof. exact arrays_iff. Qed.
Print Assumptions arrays_failure_refuted.

(** Summary *)
(** one line per end condition and per error that occurs, with its number of markers; the closing line exactly when no marker failed *)
Theorem summary_complete : forall ends errs u0 c0, List.length errs = List.length ends -> ends <> [] ->
  (forall e, In e (ends ++ errs)%list -> (-2147483648 <= e < 2147483648)%Z) ->
  exists E F f, marker_summary ends errs u0 c0 = Ok
     (map (fun e => LCond (occ e ends) (f e)) E ++ map (fun e => LErr (occ e errs) (error_parse (u64 e))) F
      ++ (if forallb (Z.eqb 0) errs then [LNone] else []))%list /\
   (forall e, describes e (f e)) /\
   one_each E (fun e => In e ends) /\ one_each F (fun e => In e errs /\ e <> 0%Z).
Proof. exact summary_spec. Qed.
Print Assumptions summary_complete.
(** the text names exactly the active conditions and fits its array *)
Theorem summary_text_fits : forall e, exists s, cond_text e = Ok s /\ describes e s /\ String.length s < 256.
Proof. exact cond_text_spec. Qed.
Print Assumptions summary_text_fits.
Theorem summary_text_unique : forall e s t, describes e s -> describes e t -> s = t.
Proof. exact describes_fun. Qed.
Print Assumptions summary_text_unique.
Theorem summary_counts_add_up : forall E l, one_each E (fun e => In e l) -> fold_right Z.add 0%Z (map (fun e => occ e l) E) = Z.of_nat (List.length l).
Proof. exact counts_total. Qed.
Print Assumptions summary_counts_add_up.
(** an error raised by the code is reported with its type, line and file *)
Theorem summary_error_source : forall t line f, (0 <= line < 1024)%Z ->
  (-2147483648 <= error_raise t line f < 2147483648)%Z /\ error_raise t line f <> 0%Z /\
  error_parse (u64 (error_raise t line f)) = (type_code t, line, file_code f).
Proof. exact raised_reported. Qed.
Print Assumptions summary_error_source.
(** finding: without markers the closing line depends on memory that does not exist *)
Theorem summary_no_markers_refuted : forall u0 c0, marker_summary [] [] u0 c0 = Ok (if Z.eqb (u0 0) 0 then [LNone] else []).
Proof. exact summary_empty. Qed.
Print Assumptions summary_no_markers_refuted.
Example summary_ex : marker_summary [1; 8; 1; 0]%Z [0; 0; 0; error_raise ERR_INPUT_EVALUATION 100 EF_B_3DS]%Z (fun _ => 7%Z) (fun _ => 7%Z)
  = Ok [LCond 2 "Sim time limit"; LCond 1 "Wall collision"; LCond 1 "Aborted"; LErr 1 (1, 100, 11)%Z].
Proof. vm_compute. reflexivity. Qed.
Example summary_ex_both : marker_summary [34]%Z [0]%Z (fun _ => 7%Z) (fun _ => 7%Z) = Ok [LCond 1 "Min energy and Max rho"; LNone].
Proof. vm_compute. reflexivity. Qed.
