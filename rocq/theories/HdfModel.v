(** The HDF5 files: QIDs, paths, reading the inputs, the run group and where results go.
    src/hdf5io/hdf5_helpers.c, src/hdf5_interface.c and the dispatchers hdf5_*_init of src/hdf5io.

    A file is what the HDF5 library lets the code see: which groups exist, string attributes of groups and
    datasets.  A path is split at '/', empty parts are ignored.  File handles and printing are left out.
    [Overflow] (MainModel) stands for undefined behaviour: a write past an array or a use of stale bytes. *)
From Coq Require Import Reals ZArith List String Ascii Bool Arith.
Import ListNotations.
From Verif Require Import MainModel.
Local Open Scope string_scope.

Inductive dset := DReal (l : list R) | DInt (l : list Z).
Definition path := list string.
Record h5 := mkh5 { grp : path -> bool; att : path -> string -> option string; dst : path -> option dset }.
Definition path_dec : forall a b : path, {a = b} + {a <> b} := list_eq_dec string_dec.

Definition flush (c : string) : path := if String.eqb c "" then [] else [c].
Fixpoint comps_from (c : string) (s : string) : path :=
  match s with
  | EmptyString => flush c
  | String a s => if Ascii.eqb a "/" then (flush c ++ comps_from "" s)%list else comps_from (c ++ String a "") s
  end.
Definition comps (s : string) : path := comps_from "" s.

Definition is_some {A} (o : option A) : bool := match o with Some _ => true | None => false end.
(** hdf5_find_group == 0, hdf5_helpers.c:100-102: any object counts *)
Definition found (f : h5) (s : string) : bool := grp f (comps s) || is_some (dst f (comps s)).

(** ** Paths *)
Definition XXX : string := "XXXXXXXXXX".
(** hdf5_gen_path and hdf5_generate_qid_path, hdf5_helpers.c:112-141: ten bytes of the QID overwrite the
    first run of ten X's; a terminator among them ends the path.  None: no X's, a null pointer is written. *)
Definition gen_path (original qid : string) : option string :=
  match index 0 XXX original with
  | None => None
  | Some i =>
      Some (if Nat.ltb (length qid) 10 then substring 0 i original ++ qid
            else substring 0 i original ++ substring 0 10 qid ++ substring (i + 10) (length original - (i + 10)) original)
  end.
(** hdf5_read_double/int/long, hdf5_helpers.c:166-281: the dataset at the generated path *)
Definition lookup (f : h5) (var qid : string) : option dset :=
  match gen_path var qid with Some p => dst f (comps p) | None => None end.
Definition found_qid (f : h5) (original qid : string) : bool :=
  match gen_path original qid with Some p => found f p | None => false end.

(** ** QIDs *)
(** hdf5_get_active_qid, hdf5_interface.c:664-671, into a char[11]: the attribute's bytes, then a terminator
    at place 10.  Fewer than ten bytes leave stale ones, more than eleven overrun the array. *)
Definition get_active_qid (f : h5) (group : string) : outcome string :=
  match att f (comps group) "active" with
  | None => Rejected
  | Some a => if Nat.ltb (length a) 10 || Nat.ltb 11 (length a) then Overflow else Ok (substring 0 10 a)
  end.
(** hdf5_interface.c:80-87 and the same for every input: strcpy into char qid[11] *)
Definition select_qid (f : h5) (group user : string) : outcome string :=
  if String.eqb user "" then get_active_qid f group
  else if Nat.ltb (length user) 11 then Ok user else Overflow.

(** sprintf "%010lu" of a number below 10^10 *)
Definition digit (d : Z) : ascii := ascii_of_nat (48 + Z.to_nat d).
Fixpoint digits (n : nat) (q : Z) (acc : string) : string :=
  match n with O => acc | S n => digits n (q / 10)%Z (String (digit (q mod 10)%Z) acc) end.
Definition fmt10 (q : Z) : string := digits 10 q "".
(** hdf5_generate_qid, hdf5_interface.c:682-704; [mrand i] is the i-th value of mrand48() *)
Fixpoint generate_qid (mrand : nat -> Z) (i fuel : nat) : option string :=
  match fuel with
  | O => None
  | S fuel => if Z.ltb (mrand i) 0 then generate_qid mrand (S i) fuel else Some (fmt10 (mrand i))
  end.

(** ** Reading the inputs *)
Inductive inp := i_options | i_bfield | i_efield | i_plasma | i_neutral | i_wall | i_boozer | i_mhd | i_asigma | i_nbi | i_marker.
Definition inp_dec : forall a b : inp, {a = b} + {a <> b}. Proof. decide equality. Defined.
(** in the order of hdf5_interface_read_input *)
Definition inputs : list inp := [i_options; i_bfield; i_efield; i_plasma; i_neutral; i_wall; i_boozer; i_mhd; i_asigma; i_nbi; i_marker].
(** enum input_group, hdf5_interface.h:20-32 *)
Definition flag (k : inp) : Z :=
  match k with
  | i_options => 0x1 | i_bfield => 0x2 | i_efield => 0x4 | i_plasma => 0x8 | i_neutral => 0x10 | i_wall => 0x20
  | i_marker => 0x40 | i_boozer => 0x80 | i_mhd => 0x100 | i_asigma => 0x200 | i_nbi => 0x400 end%Z.
Definition gname (k : inp) : string :=
  match k with
  | i_options => "/options/" | i_bfield => "/bfield/" | i_efield => "/efield/" | i_plasma => "/plasma/"
  | i_neutral => "/neutral/" | i_wall => "/wall/" | i_boozer => "/boozer/" | i_mhd => "/mhd/"
  | i_asigma => "/asigma/" | i_nbi => "/nbi/" | i_marker => "/marker/" end.
Inductive status := Done | Failed | UB.
Record rstate := mkr { slots : inp -> string; inited : list (inp * string) }.
Definition setslot (s : inp -> string) (k : inp) (v : string) : inp -> string := fun j => if inp_dec j k then v else s j.
Section read.
Variable f : h5.
(** the reader of one input succeeds for a QID (hdf5_options_read, hdf5_bfield_init, ..., hdf5_marker_read) *)
Variable reader : inp -> string -> bool.
Variable mask : Z.
Definition wanted (k : inp) : bool := negb (Z.eqb (Z.land mask (flag k)) 0).
(** hdf5_interface_read_input, hdf5_interface.c:73-312 *)
Fixpoint read_list (l : list inp) (s : rstate) : status * rstate :=
  match l with
  | [] => (Done, s)
  | k :: l =>
      if negb (wanted k) then read_list l s
      else if negb (found f (gname k)) then (Failed, s)
      else match select_qid f (gname k) (slots s k) with
           | Rejected => (Failed, s)
           | Overflow => (UB, s)
           | Ok q =>
               let s := mkr (setslot (slots s) k q) (inited s) in
               if reader k q then read_list l (mkr (slots s) (inited s ++ [(k, q)])%list) else (Failed, s)
           end
  end.
Definition read_input (user : inp -> string) : status * rstate := read_list inputs (mkr user []).
End read.

(** ** The type of an input: hdf5_bfield.c:62-100, hdf5_efield.c:52-69, hdf5_plasma.c:36-58,
    hdf5_neutral.c:38-55, hdf5_wall.c:40-57, hdf5_mhd.c:31-48, hdf5_asigma.c:30-43.
    Every type whose group has this QID is read in turn; the return value is that of the last one. *)
Section types.
Context {T : Type}.
Variable f : h5.
Variable read1 : T -> bool.
Fixpoint init_types (l : list (string * T)) (qid : string) (r : bool * option T) : bool * option T :=
  match l with
  | [] => r
  | (tmpl, t) :: l => init_types l qid (if found_qid f tmpl qid then (read1 t, Some t) else r)
  end.
End types.
Inductive btype := B_TC | B_GS | B_2DS | B_3DS | B_STS.
Definition bfield_types : list (string * btype) :=
  [("/bfield/B_TC_XXXXXXXXXX", B_TC); ("/bfield/B_GS_XXXXXXXXXX", B_GS); ("/bfield/B_2DS_XXXXXXXXXX", B_2DS);
   ("/bfield/B_3DS_XXXXXXXXXX", B_3DS); ("/bfield/B_STS_XXXXXXXXXX", B_STS)].
Inductive etype := E_TC | E_1DS.
Definition efield_types : list (string * etype) := [("/efield/E_TC_XXXXXXXXXX", E_TC); ("/efield/E_1DS_XXXXXXXXXX", E_1DS)].
Inductive pltype := P_1D | P_1Dt | P_1DS.
Definition plasma_types : list (string * pltype) :=
  [("/plasma/plasma_1D_XXXXXXXXXX", P_1D); ("/plasma/plasma_1Dt_XXXXXXXXXX", P_1Dt); ("/plasma/plasma_1DS_XXXXXXXXXX", P_1DS)].
Inductive ntype := N_1D | N_3D.
Definition neutral_types : list (string * ntype) := [("/neutral/N0_1D_XXXXXXXXXX", N_1D); ("/neutral/N0_3D_XXXXXXXXXX", N_3D)].
Inductive wtype := W_2D | W_3D.
Definition wall_types : list (string * wtype) := [("/wall/wall_2D_XXXXXXXXXX", W_2D); ("/wall/wall_3D_XXXXXXXXXX", W_3D)].
Inductive mtype := M_stat | M_nonstat.
Definition mhd_types : list (string * mtype) := [("/mhd/MHD_STAT_XXXXXXXXXX", M_stat); ("/mhd/MHD_NONSTAT_XXXXXXXXXX", M_nonstat)].
Definition init_input {T} (f : h5) (types : list (string * T)) (read1 : T -> bool) (qid : string) : bool * option T :=
  init_types f read1 types qid (false, None).

(** ** The run group *)
Definition add_group (f : h5) (p : path) : h5 := mkh5 (fun q => if path_dec q p then true else grp f q) (att f) (dst f).
(** hdf5_create_group, hdf5_helpers.c:66-95, on the parts of the path; [here] is the group [loc].
    The result says whether a handle was returned. *)
Fixpoint create_group (here p : path) (f : h5) : bool * h5 :=
  match p with
  | [] => (false, f)
  | [x] => if grp f (here ++ [x])%list || is_some (dst f (here ++ [x])%list) then (false, f) else (true, add_group f (here ++ [x])%list)
  | x :: rest =>
      if grp f (here ++ [x])%list then create_group (here ++ [x])%list rest f
      else if is_some (dst f (here ++ [x])%list) then (false, f)
      else create_group (here ++ [x])%list rest (add_group f (here ++ [x])%list)
  end.
(** hdf5_write_string_attribute, hdf5_helpers.c:289-325: replaces an attribute of the same name *)
Definition set_att (f : h5) (s name v : string) : h5 :=
  mkh5 (grp f) (fun p n => if path_dec p (comps s) then if String.eqb n name then Some v else att f p n else att f p n) (dst f).
Definition empty_file : h5 := mkh5 (fun p => match p with [] => true | _ => false end) (fun _ _ => None) (fun _ => None).
Definition qid_attr (k : inp) : string :=
  match k with
  | i_options => "qid_options" | i_bfield => "qid_bfield" | i_efield => "qid_efield" | i_plasma => "qid_plasma"
  | i_neutral => "qid_neutral" | i_wall => "qid_wall" | i_boozer => "qid_boozer" | i_mhd => "qid_mhd"
  | i_asigma => "qid_asigma" | i_nbi => "qid_nbi" | i_marker => "qid_marker" end.
(** order of hdf5_interface.c:384-438 *)
Definition recorded : list inp := [i_options; i_bfield; i_efield; i_plasma; i_neutral; i_wall; i_marker; i_boozer; i_mhd; i_asigma; i_nbi].
Definition record_qid (path : string) (s : inp -> string) (f : h5) (k : inp) : h5 :=
  if String.eqb (s k) "" then f else set_att f path (qid_attr k) (s k).
(** hdf5_interface_init_results, hdf5_interface.c:342-472; [out] the output file if it exists, [creatable]
    whether one can be created; repository, date and compiler attributes come from outside *)
Definition init_results (out : option h5) (creatable : bool) (s : inp -> string) (desc repo date cflags cc : string) (qid run : string) : status * option h5 :=
  match (match out with Some f => Some f | None => if creatable then Some empty_file else None end) with
  | None => (Failed, None)
  | Some f =>
      match gen_path ("/results/" ++ run ++ "_XXXXXXXXXX") qid with
      | None => (UB, Some f)
      | Some path =>
          match create_group [] (comps path) f with
          | (false, f) => (Failed, Some f)
          | (true, f) =>
              let f := set_att f "/results" "active" qid in
              let f := fold_left (record_qid path s) recorded f in
              let f := set_att f path "description" desc in
              let f := set_att f path "repository" repo in
              let f := set_att f path "date" date in
              let f := set_att f path "CFLAGS" cflags in
              (Done, Some (set_att f path "CC" cc))
          end
      end
  end.
(** hdf5_interface_write_state and hdf5_interface_write_diagnostics, hdf5_interface.c:492-525, 553-586: the
    group results are written under, "" (the file root) with only a message when no run group is found *)
Fixpoint first_found (f : h5) (l : list string) (qid : string) : string :=
  match l with
  | [] => ""
  | t :: l => let run := "/results/" ++ t ++ "_" ++ qid ++ "/" in if found f run then run else first_found f l qid
  end.
Definition run_types : list string := ["run"; "bbnbi"; "afsi"].
Definition run_group (f : h5) : outcome string := bind (get_active_qid f "/results/") (fun q => Ok (first_found f run_types q)).
(** the group of the state "inistate"/"endstate" or of a diagnostics output, hdf5_state.c:35-42 and
    hdf5_interface.c:588-645 *)
Definition result_path (f : h5) (name : string) : outcome path := bind (run_group f) (fun r => Ok (comps (r ++ name))).
