(** The main program, src/ascot5_main.c: command line, marker preparation and collection, marker summary
    and the life time of the marker arrays. *)
From Coq Require Import ZArith List String Bool Arith.
Import ListNotations.
From Verif Require Import StateModel MpiModel EndcondModel ErrorModel Math2Model.
Local Open Scope string_scope.

(** ** Command line *)
(** one recognised argument of getopt_long (codes 1-15, ascot5_main.c:452-469), or anything else *)
Inductive kind := k_options | k_bfield | k_efield | k_marker | k_wall | k_plasma | k_neutral | k_boozer | k_mhd | k_asigma.
Definition kind_beq (a b : kind) : bool :=
  match a, b with
  | k_options, k_options | k_bfield, k_bfield | k_efield, k_efield | k_marker, k_marker | k_wall, k_wall
  | k_plasma, k_plasma | k_neutral, k_neutral | k_boozer, k_boozer | k_mhd, k_mhd | k_asigma, k_asigma => true
  | _, _ => false end.
Inductive opt := OIn (s : string) | OOut (s : string) | OSize (s : string) | ORank (s : string) | ODesc (s : string) | OQid (k : kind) (s : string) | OBad.
Record conf := mkconf { hin : string; hout : string; msize : Z; mrank : Z; desc : string; qid : kind -> string }.
(** success, rejected arguments (return value 1), or a write past the end of a 256 byte array *)
Inductive outcome (A : Type) := Ok (a : A) | Rejected | Overflow.
Arguments Ok {A}. Arguments Rejected {A}. Arguments Overflow {A}.
Definition bind {A B} (o : outcome A) (f : A -> outcome B) : outcome B :=
  match o with Ok a => f a | Rejected => Rejected | Overflow => Overflow end.
(** strcpy or strcat into a char[256] (simulate.h:130-150): the terminator needs room too *)
Definition store (s : string) : outcome string := if Nat.ltb (length s) 256 then Ok s else Overflow.
(** ascot5_main.c:494-517: a trailing ".h5" is cut off after copying *)
Definition store_file (s : string) : outcome string :=
  bind (store s) (fun s => Ok (if Nat.ltb 3 (length s) && String.eqb (substring (length s - 3) 3 s) ".h5" then substring 0 (length s - 3) s else s)).
Section args.
Variable atoi : string -> Z.
(** ascot5_main.c:493-572, one argument *)
Definition arg1 (o : opt) (c : conf) : outcome conf :=
  match o with
  | OIn s => bind (store_file s) (fun s => Ok (mkconf s (hout c) (msize c) (mrank c) (desc c) (qid c)))
  | OOut s => bind (store_file s) (fun s => Ok (mkconf (hin c) s (msize c) (mrank c) (desc c) (qid c)))
  | OSize s => Ok (mkconf (hin c) (hout c) (atoi s) (mrank c) (desc c) (qid c))
  | ORank s => Ok (mkconf (hin c) (hout c) (msize c) (atoi s) (desc c) (qid c))
  | ODesc s => bind (store s) (fun s => Ok (mkconf (hin c) (hout c) (msize c) (mrank c) s (qid c)))
  | OQid k s => bind (store s) (fun s => Ok (mkconf (hin c) (hout c) (msize c) (mrank c) (desc c) (fun k' => if kind_beq k' k then s else qid c k')))
  | OBad => Rejected
  end.
Fixpoint args (l : list opt) (c : conf) : outcome conf :=
  match l with [] => Ok c | o :: l => bind (arg1 o c) (args l) end.
(** ascot5_main.c:472-487 *)
Definition defaults : conf := mkconf "" "" 0 0 "No description." (fun _ => "").
(** ascot5_main.c:578-597 *)
Definition file_names (c : conf) : outcome conf :=
  let set i o := mkconf i o (msize c) (mrank c) (desc c) (qid c) in
  match String.eqb (hin c) "", String.eqb (hout c) "" with
  | true, true => Ok (set "ascot.h5" "ascot.h5")
  | true, false => bind (store (hout c ++ ".h5")) (fun o => Ok (set "ascot.h5" o))
  | false, true => bind (store (hin c ++ ".h5")) (fun i => Ok (set i i))
  | false, false => bind (store (hin c ++ ".h5")) (fun i => bind (store (hout c ++ ".h5")) (fun o => Ok (set i o)))
  end.
(** read_arguments, ascot5_main.c:451-599 *)
Definition read_arguments (l : list opt) : outcome conf := bind (args l defaults) file_names.
End args.

(** ** Markers *)
Section markers.
Context {I X : Type}.
(** particle_input_to_state, and the effect of simulate() on the markers of one process *)
Variables (conv : I -> pstate X) (sim : nat -> list (pstate X) -> list (pstate X)) (dummy : pstate X).
(** prepare_markers, ascot5_main.c:252-283 *)
Definition prepare_markers (inp : list I) (rank size : nat) : list (pstate X) :=
  let '(start, n) := my_particles (List.length inp) rank size in map conv (firstn n (skipn start inp)).
(** write_rungroup, ascot5_main.c:295-335: the states written as inistate by the root *)
Definition inistate (inp : list I) (size : nat) : option (buf (pstate X)) :=
  gather (List.length inp) size (fun rank j => nth j (prepare_markers inp rank size) dummy).
(** offload_and_simulate, ascot5_main.c:355-376, and write_output, 389-424: the states written as endstate by the root *)
Definition endstate (inp : list I) (size : nat) : option (buf (pstate X)) :=
  gather (List.length inp) size (fun rank j => nth j (sim rank (prepare_markers inp rank size)) dummy).
End markers.

(** ** Life time of the marker arrays, ascot5_main.c:144-231 *)
Inductive ptr := Uninit | Live | Freed.
Definition free (p : ptr) : option ptr := match p with Live => Some Freed | _ => None end.
(** the outcome of a run: success with the final state of p, ps and pout, an orderly failure, or undefined
    behaviour. [read_ok], [group_ok] and [output_ok] say whether reading the input, writing the run group and
    writing the output succeed; prepare_markers always returns zero (ascot5_main.c:281). *)
Inductive run := Done (p ps pout : ptr) | Failed | Undefined.
Definition cleanup_failure (p ps pout : ptr) : run :=
  match free p with None => Undefined | Some _ => match free ps with None => Undefined | Some _ => match free pout with None => Undefined | Some _ => Failed end end end.
Definition main_arrays (read_ok group_ok output_ok : bool) : run :=
  let '(p, ps, pout) := (Uninit, Uninit, Uninit) in
  if negb read_ok then Failed else
  let p := Live in
  (* prepare_markers *)
  let ps := Live in
  match free p with None => Undefined | Some p =>
  if negb group_ok then cleanup_failure p ps pout else
  (* offload_and_simulate *)
  let pout := Live in
  match free ps with None => Undefined | Some ps =>
  if negb output_ok then cleanup_failure p ps pout else
  match free pout with None => Undefined | Some pout => Done p ps pout end end end.

(** ** Summary *)
(** endcond_parse2str, endcond.c:564-607; any other code leaves the string unset (only codes 1-12 are passed) *)
Definition endcond_str (c : Z) : string :=
  match c with
  | 1 => "Sim time limit" | 2 => "Min energy" | 3 => "Thermalization" | 4 => "Wall collision" | 5 => "Min rho" | 6 => "Max rho"
  | 7 => "Max poloidal orbits" | 8 => "Max toroidal orbits" | 9 => "CPU time exceeded" | 10 => "Hybrid condition"
  | 11 => "Neutralization" | 12 => "Ionization" | _ => "" end%Z.
(** ascot5_main.c:648-660: built up by strcat in a char[256] *)
Fixpoint cat_conds (first : bool) (s : string) (l : list Z) : outcome string :=
  match l with
  | [] => Ok s
  | c :: l => bind (if first then Ok s else store (s ++ " and ")) (fun s => bind (store (s ++ endcond_str c)) (fun s => cat_conds false s l))
  end.
Definition cond_text (e : Z) : outcome string :=
  match endcond_parse e with [] => Ok "Aborted" | l => cat_conds true "" l end.
Inductive line := LCond (n : Z) (s : string) | LErr (n : Z) (type_line_file : Z * Z * Z) | LNone.
(** conversion to int of an integer field (long) or of (int)(ps[i].err) *)
Definition to_int (x : Z) : Z := let y := (x mod 4294967296)%Z in if (y <? 2147483648)%Z then y else (y - 4294967296)%Z.
(** the two while loops; count[n_tot] = 0 stops them *)
Fixpoint cond_lines (fuel i : nat) (u c : nat -> Z) : outcome (list line) :=
  match fuel with
  | O => Ok []
  | S fuel => if (c i >? 0)%Z then bind (cond_text (u i)) (fun s => bind (cond_lines fuel (S i) u c) (fun l => Ok (LCond (c i) s :: l))) else Ok []
  end.
Fixpoint err_lines (fuel i : nat) (u c : nat -> Z) : list line :=
  match fuel with
  | O => []
  | S fuel => if (c i >? 0)%Z then (if (u i =? 0)%Z then [] else [LErr (c i) (error_parse (u64 (u i)))]) ++ err_lines fuel (S i) u c else []
  end.
(** print_marker_summary, ascot5_main.c:615-704, for the end conditions and error codes of the [n_tot] markers.
    [u0], [c0] are the uninitialised arrays. Simplification: for n_tot = 0 the last test reads unique[0], which does
    not exist; [u0] stands for whatever is there. *)
Definition marker_summary (ends errs : list Z) (u0 c0 : nat -> Z) : outcome (list line) :=
  let n := List.length ends in
  let '(u, c) := uniquecount (map to_int ends) u0 c0 in
  let c := fun i => if Nat.eqb i n then 0%Z else c i in
  bind (cond_lines (S n) 0 u c) (fun l1 =>
  let '(u, c) := uniquecount (map to_int errs) u c in
  let l2 := err_lines (S n) 0 u c in
  let l3 := if (c 0%nat =? Z.of_nat n)%Z && (u 0%nat =? 0)%Z then [LNone] else [] in
  Ok (l1 ++ l2 ++ l3)%list).
