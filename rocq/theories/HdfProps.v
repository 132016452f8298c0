(** The HDF5 files: QIDs and paths, reading the inputs, the run group *)
From Coq Require Import Reals ZArith List String Ascii Bool Arith Lia.
From Verif Require Import MainModel MainProofs HdfModel HdfProofs.
Import ListNotations.
Local Open Scope string_scope.
Local Open Scope nat_scope.

(** Paths *)
(** a QID of ten characters takes the place of the ten X *)
Theorem qid_path : forall pre post qid, no "X" pre -> length qid = 10 -> gen_path (pre ++ XXX ++ post) qid = Some (pre ++ qid ++ post).
Proof. exact gen_path_ten. Qed.
Print Assumptions qid_path.
(** of a longer text only the first ten characters count *)
Theorem qid_path_long : forall pre post qid, no "X" pre -> 10 <= length qid -> gen_path (pre ++ XXX ++ post) qid = gen_path (pre ++ XXX ++ post) (substring 0 10 qid).
Proof. exact gen_path_long. Qed.
Print Assumptions qid_path_long.
(** a dataset is looked up in the group of its type and QID *)
Theorem dataset_address : forall g t name, plain g -> plain t -> plain name -> g <> "" -> t <> "" -> name <> "" -> no "X" g -> no "X" t -> forall f qid, length qid = 10 -> plain qid -> lookup f (tmpl g t name) qid = dst f [g; t ++ qid; name].
Proof. exact (fun g t name a b c d e f h i => lookup_address g t name a b c d e f h i). Qed.
Print Assumptions dataset_address.
(** so is the group itself *)
Theorem group_address : forall g t, plain g -> plain t -> g <> "" -> t <> "" -> no "X" g -> no "X" t -> forall f qid, length qid = 10 -> plain qid -> found_qid f (gtmpl g t) qid = grp f [g; t ++ qid] || is_some (dst f [g; t ++ qid]).
Proof. exact (fun g t a b d e h i => found_address g t a b d e h i). Qed.
Print Assumptions group_address.
(** finding: with a shorter QID the name of the dataset is lost, so a group of that name is never readable *)
Theorem short_qid_refuted : forall g t name, plain g -> plain t -> g <> "" -> t <> "" -> no "X" g -> no "X" t -> forall f qid, length qid < 10 -> plain qid -> lookup f (tmpl g t name) qid = dst f [g; t ++ qid].
Proof. exact (fun g t name a b d e h i => lookup_short g t name a b d e h i). Qed.
Print Assumptions short_qid_refuted.
Example qid_path_ex : gen_path "/bfield/B_2DS_XXXXXXXXXX/psi" "0123456789" = Some "/bfield/B_2DS_0123456789/psi".
Proof. reflexivity. Qed.
Example qid_path_ex_short : gen_path "/bfield/B_2DS_XXXXXXXXXX/psi" "123" = Some "/bfield/B_2DS_123".
Proof. reflexivity. Qed.
Example comps_ex : comps "/results/run_0123456789/" = ["results"; "run_0123456789"].
Proof. reflexivity. Qed.

(** Generated QIDs *)
(** the first random number that is not negative, in ten digits; it is below 2^31 (the documented range is 0 to 2^32-1) *)
Theorem generated_qid : forall mrand k fuel, (forall i, (- 2 ^ 31 <= mrand i < 2 ^ 31)%Z) -> (forall j, j < k -> (mrand j < 0)%Z) -> (0 <= mrand k)%Z -> k < fuel ->
  exists s, generate_qid mrand 0 fuel = Some s /\ length s = 10 /\ alldigits s /\ decval 0 s = mrand k /\ (decval 0 s < 2 ^ 31)%Z.
Proof. exact generate_qid_spec. Qed.
Print Assumptions generated_qid.
Theorem generated_qid_loops : forall mrand fuel, forall i, (forall j, (mrand j < 0)%Z) -> generate_qid mrand i fuel = None.
Proof. exact generate_qid_none. Qed.
Print Assumptions generated_qid_loops.
Example generated_qid_ex : generate_qid (fun i => if Nat.eqb i 0 then (-5)%Z else 70123%Z) 0 5 = Some "0000070123".
Proof. vm_compute. reflexivity. Qed.

(** Reading the inputs *)
(** reading succeeds exactly when every requested input has a group, a usable QID and readable data *)
Theorem input_read_iff : forall (f : h5) (reader : inp -> string -> bool) (mask : Z) (user : inp -> string), fst (read_input f reader mask user) = Done <-> forall k, wanted mask k = true -> exists q, readable f reader user k q.
Proof. exact read_input_done. Qed.
Print Assumptions input_read_iff.
(** then the recorded QID of each requested input is the user's, or the active one, and the others are untouched *)
Theorem input_qids : forall (f : h5) (reader : inp -> string -> bool) (mask : Z) (user : inp -> string), fst (read_input f reader mask user) = Done ->
  let s := snd (read_input f reader mask user) in
  (forall k, wanted mask k = true -> chosen f user k (slots s k)) /\ (forall k, wanted mask k = false -> slots s k = user k) /\
  map fst (inited s) = filter (wanted mask) inputs.
Proof. exact read_input_slots. Qed.
Print Assumptions input_qids.
(** otherwise everything before the first bad input was read and nothing after it; an over-long QID is undefined behaviour *)
Theorem input_stops_at_first_failure : forall (f : h5) (reader : inp -> string -> bool) (mask : Z) (user : inp -> string), let (st, s) := read_input f reader mask user in
  exists pre rest, filter (wanted mask) inputs = (pre ++ rest)%list /\ map fst (inited s) = pre /\
    (forall k q, In (k, q) (inited s) -> readable f reader user k q /\ slots s k = q) /\
    (forall k, ~ In k pre -> hd_error rest <> Some k -> slots s k = user k) /\
    match st with
    | Done => rest = []
    | Failed => exists k r, rest = k :: r /\ forall q, ~ readable f reader user k q
    | UB => exists k r, rest = k :: r /\ found f (gname k) = true /\ (toolong user k \/ badactive f user k)
    end.
Proof. exact read_input_prefix. Qed.
Print Assumptions input_stops_at_first_failure.
(** of several types with the same QID the last one counts *)
Theorem input_type_last : forall (T : Type) (f : h5) (read1 : T -> bool) (qid : string) types pre tm t, filter (present f qid) types = (pre ++ [(tm, t)])%list -> init_input f types read1 qid = (read1 t, Some t).
Proof. exact (fun T => @init_input_last T). Qed.
Print Assumptions input_type_last.
(** no type: failure *)
Theorem input_type_none : forall (T : Type) (f : h5) (read1 : T -> bool) (qid : string) types, (forall p, In p types -> found_qid f (fst p) qid = false) -> init_input f types read1 qid = (false, None).
Proof. exact (fun T => @init_input_none T). Qed.
Print Assumptions input_type_none.
(** success depends on the last type alone *)
Theorem input_type_success : forall (T : Type) (f : h5) (read1 : T -> bool) (qid : string) types, fst (init_input f types read1 qid) = true <->
  exists pre tm t, filter (present f qid) types = (pre ++ [(tm, t)])%list /\ read1 t = true.
Proof. exact (fun T => @init_input_iff T). Qed.
Print Assumptions input_type_success.
(** the inputs can be requested independently of each other *)
Theorem input_masks : forall want k, wanted (mask_of want) k = want k.
Proof. exact mask_selects. Qed.
Print Assumptions input_masks.
(** a QID used by one type of bfield only selects that type *)
Theorem input_type_bfield : forall f qid read1 t, length qid = 10 -> plain qid -> (forall u, has_type "bfield" bname f qid u = true <-> u = t) -> init_input f bfield_types read1 qid = (read1 t, Some t).
Proof. exact bfield_only. Qed.
Print Assumptions input_type_bfield.
(** a QID used by one type of efield only selects that type *)
Theorem input_type_efield : forall f qid read1 t, length qid = 10 -> plain qid -> (forall u, has_type "efield" ename f qid u = true <-> u = t) -> init_input f efield_types read1 qid = (read1 t, Some t).
Proof. exact efield_only. Qed.
Print Assumptions input_type_efield.
(** a QID used by one type of plasma only selects that type *)
Theorem input_type_plasma : forall f qid read1 t, length qid = 10 -> plain qid -> (forall u, has_type "plasma" plname f qid u = true <-> u = t) -> init_input f plasma_types read1 qid = (read1 t, Some t).
Proof. exact plasma_only. Qed.
Print Assumptions input_type_plasma.
(** a QID used by one type of neutral only selects that type *)
Theorem input_type_neutral : forall f qid read1 t, length qid = 10 -> plain qid -> (forall u, has_type "neutral" nname f qid u = true <-> u = t) -> init_input f neutral_types read1 qid = (read1 t, Some t).
Proof. exact neutral_only. Qed.
Print Assumptions input_type_neutral.
(** a QID used by one type of wall only selects that type *)
Theorem input_type_wall : forall f qid read1 t, length qid = 10 -> plain qid -> (forall u, has_type "wall" wname f qid u = true <-> u = t) -> init_input f wall_types read1 qid = (read1 t, Some t).
Proof. exact wall_only. Qed.
Print Assumptions input_type_wall.
(** a QID used by one type of mhd only selects that type *)
Theorem input_type_mhd : forall f qid read1 t, length qid = 10 -> plain qid -> (forall u, has_type "mhd" mname f qid u = true <-> u = t) -> init_input f mhd_types read1 qid = (read1 t, Some t).
Proof. exact mhd_only. Qed.
Print Assumptions input_type_mhd.
Definition demo (gs : list path) (act : path -> option string) : h5 :=
  mkh5 (fun p => if in_dec path_dec p gs then true else false) (fun p n => if String.eqb n "active" then act p else None) (fun _ => None).
Definition demo1 : h5 := demo [["bfield"]; ["bfield"; "B_GS_0000000001"]; ["bfield"; "B_3DS_0000000001"]; ["wall"]] (fun p => if path_dec p ["bfield"] then Some "0000000001" else None).
Example input_ex : let r := read_input demo1 (fun _ _ => true) 34%Z (fun k => match k with i_wall => "0000000007" | _ => "" end) in
  fst r = Done /\ slots (snd r) i_bfield = "0000000001" /\ slots (snd r) i_wall = "0000000007" /\ slots (snd r) i_mhd = "" /\ map fst (inited (snd r)) = [i_bfield; i_wall].
Proof. repeat split; reflexivity. Qed.
Example input_ex_long : fst (read_input demo1 (fun _ _ => true) 34%Z (fun k => match k with i_wall => "00000000071" | _ => "" end)) = UB.
Proof. reflexivity. Qed.
Example input_ex_missing : fst (read_input demo1 (fun _ _ => true) 35%Z (fun _ => "")) = Failed.
Proof. reflexivity. Qed.
Example input_type_ex : init_input demo1 bfield_types (fun t => match t with B_GS => false | _ => true end) "0000000001" = (true, Some B_3DS).
Proof. reflexivity. Qed.

(** The run group *)
(** a run is set up exactly when the file can be opened and nothing of that run type and QID exists yet *)
Theorem run_group_created : forall out creatable s desc repo date cflags cc qid run, length qid = 10 -> plain qid -> plain run -> no "X" run ->  fst (init_results out creatable s desc repo date cflags cc qid run) = Done <-> exists f, file0 out creatable = Some f /\ room qid run f.
Proof. exact init_results_done. Qed.
Print Assumptions run_group_created.
(** then the run is the active one, its group holds the QIDs of the inputs, and nothing else in the file changed *)
Theorem run_group_contents : forall out creatable s desc repo date cflags cc qid run, length qid = 10 -> plain qid -> plain run -> no "X" run -> forall f f', file0 out creatable = Some f -> wf f -> init_results out creatable s desc repo date cflags cc qid run = (Done, Some f') ->
  grp f' (rpath run qid) = true /\ att f' ["results"] "active" = Some qid /\
  (forall k, att f' (rpath run qid) (qid_attr k) = if String.eqb (s k) "" then None else Some (s k)) /\
  att f' (rpath run qid) "description" = Some desc /\
  (forall p, p <> rpath run qid -> p <> ["results"] -> grp f' p = grp f p) /\ dst f' = dst f /\
  (forall p n, p <> rpath run qid -> (p, n) <> (["results"], "active") -> att f' p n = att f p n).
Proof. exact init_results_effect. Qed.
Print Assumptions run_group_contents.
(** results go to the group of the first run type that has the active QID; finding: to the file root, without an error, if there is none *)
Theorem results_destination : forall qid, length qid = 10 -> plain qid -> forall f name, plain name -> name <> "" -> att f ["results"] "active" = Some qid ->
  (exists pre t post, ["run"; "bbnbi"; "afsi"] = (pre ++ t :: post)%list /\ (forall u, In u pre -> taken f (rpath u qid) = false) /\ taken f (rpath t qid) = true /\ result_path f name = Ok (rpath t qid ++ [name])%list)
  \/ ((forall t, In t ["run"; "bbnbi"; "afsi"] -> taken f (rpath t qid) = false) /\ result_path f name = Ok [name]).
Proof. exact result_path_spec. Qed.
Print Assumptions results_destination.
(** after setting up a run its results go to its own group exactly when no run type looked up before has the same QID *)
Theorem results_own_group : forall out creatable s desc repo date cflags cc qid run f f' name, length qid = 10 -> plain qid -> plain name -> name <> "" -> wf f -> file0 out creatable = Some f ->
  init_results out creatable s desc repo date cflags cc qid run = (Done, Some f') ->
  forall pre post, ["run"; "bbnbi"; "afsi"] = (pre ++ run :: post)%list ->
  (result_path f' name = Ok (rpath run qid ++ [name])%list <-> forall u, In u pre -> taken f (rpath u qid) = false).
Proof. exact own_group. Qed.
Print Assumptions results_own_group.
Definition demo2 : h5 := demo [["results"]; ["results"; "run_0000000001"]] (fun _ => None).
Example run_ex : exists f, init_results (Some demo2) true (fun k => match k with i_wall => "0000000007" | _ => "" end) "D" "R" "T" "F" "C" "0000000002" "run" = (Done, Some f)
  /\ result_path f "endstate" = Ok ["results"; "run_0000000002"; "endstate"] /\ att f ["results"; "run_0000000002"] "qid_wall" = Some "0000000007".
Proof. eexists. repeat split; reflexivity. Qed.
Example run_ex_again : fst (init_results (Some demo2) true (fun _ => "") "D" "R" "T" "F" "C" "0000000001" "run") = Failed.
Proof. reflexivity. Qed.
(** finding: a beam run may be given the QID of an orbit-following run, and then writes into that run's group *)
Theorem results_own_group_refuted : exists f, init_results (Some demo2) true (fun _ => "") "D" "R" "T" "F" "C" "0000000001" "bbnbi" = (Done, Some f)
  /\ result_path f "endstate" = Ok ["results"; "run_0000000001"; "endstate"].
Proof. eexists. split; reflexivity. Qed.
Print Assumptions results_own_group_refuted.
(** finding: an active QID without a run group sends the results to the file root *)
Theorem results_root_refuted : result_path (demo [["results"]] (fun _ => Some "0000000001")) "endstate" = Ok ["endstate"].
Proof. reflexivity. Qed.
Print Assumptions results_root_refuted.
