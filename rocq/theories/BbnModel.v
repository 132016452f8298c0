(** The beam program, src/bbnbi5_main.c: command line and the markers that are asked of each injector.

    getopt_long, atoi and atof are arguments; printing is left out. *)
From Coq Require Import Reals ZArith List String Bool Arith.
Import ListNotations.
From Verif Require Import MainModel HdfModel NbiModel HnbiModel.
Local Open Scope string_scope.

(** one argument with its code (bbnbi5_main.c:150-164); common ones are those that ascot5_main knows as well *)
Inductive bopt := BCommon (o : opt) | BNbi (s : string) | BN (s : string) | BT1 (s : string) | BT2 (s : string).
Record bconf := mkb { common : conf; bnbi : string; bn : Z; bt1 : R; bt2 : R }.
Section args.
Variables (atoi : string -> Z) (atof : string -> R).
(** the inputs that can be chosen: bbnbi5_main.c:156-159 *)
Definition chosen (k : kind) : bool := match k with k_bfield | k_wall | k_plasma => true | _ => false end.
(** bbnbi5_main.c:191-245: in, out, mpi_size, mpi_rank, d, bfield, wall and plasma are stored as in ascot5_main.c:493-572 *)
Definition barg1 (o : bopt) (b : bconf) : outcome bconf :=
  match o with
  | BCommon (OQid k s) => if chosen k then bind (arg1 atoi (OQid k s) (common b)) (fun c => Ok (mkb c (bnbi b) (bn b) (bt1 b) (bt2 b))) else Rejected
  | BCommon o => bind (arg1 atoi o (common b)) (fun c => Ok (mkb c (bnbi b) (bn b) (bt1 b) (bt2 b)))
  | BNbi s => bind (store s) (fun s => Ok (mkb (common b) s (bn b) (bt1 b) (bt2 b)))
  | BN s => Ok (mkb (common b) (bnbi b) (atoi s) (bt1 b) (bt2 b))
  | BT1 s => Ok (mkb (common b) (bnbi b) (bn b) (atof s) (bt2 b))
  | BT2 s => Ok (mkb (common b) (bnbi b) (bn b) (bt1 b) (atof s))
  end.
Fixpoint bargs (l : list bopt) (b : bconf) : outcome bconf :=
  match l with [] => Ok b | o :: l => bind (barg1 o b) (bargs l) end.
(** bbnbi5_main.c:167-185 *)
Definition bdefaults : bconf := mkb (mkconf "" "" 0 0 "TAG" (fun _ => "")) "" 10000 0 0.
(** bbnbi5_main.c:148-294; 271-292 are ascot5_main.c:578-597 *)
Definition bbnbi_read_arguments (l : list bopt) : outcome bconf :=
  bind (bargs l bdefaults) (fun b => bind (file_names (common b)) (fun c => Ok (mkb c (bnbi b) (bn b) (bt1 b) (bt2 b)))).
(** bbnbi5_main.c:52-60: the process number is set after the command line was read *)
Definition process (b : bconf) : Z := 0.
(** bbnbi5_main.c:60-68 and bbnbi5.c:56-93: number of markers of each injector in the file, None if there is nothing to divide by *)
Definition bbnbi_shares (f : h5) (qid : string) (m : nat -> R) (b : bconf) : outcome (option (list Z)) :=
  bind (hdf5_nbi_init f qid m) (fun l => Ok (shares (bn b) (map (fun x => power (snd x)) l))).
End args.
