(** Model of src/neutral/N0_1D.c, N0_3D.c and of the evaluation functions of src/neutral.c.

    Exact arithmetic; malloc succeeds and returns pairwise distinct blocks, numbered in the
    order of the calls.  The printed summary and the copies of anum, znum and maxwellian
    (element by element, plain loops) are left out. *)
From Coq Require Import Reals List ZArith Bool.
From Verif Require Import AxisModel LintModel ErrorModel.
Import ListNotations.
Local Open Scope R_scope.

(** the blocks of one data struct: the five arrays and, for species i, the coefficient
    arrays of n0[i] and t0[i] *)
Record blocks := Blocks { b_anum : nat; b_znum : nat; b_maxw : nat; b_n0 : nat; b_t0 : nat; b_n0c : nat -> nat; b_t0c : nat -> nat }.
(** mallocs of N0_1D_init:34-38, 45, 50 and N0_3D_init:28-32, 38, 45: the struct and the blocks *)
Definition init_blocks (n : nat) : blocks := Blocks 0 1 2 3 4 (fun i => 5 + 2 * i)%nat (fun i => 6 + 2 * i)%nat.
Definition init_mallocs (n : nat) : list nat := seq 0 (5 + 2 * n).
(** N0_1D_free:79-89, N0_3D_free:82-92: the calls of free in order; "data->n0->c" is the
    coefficient array of species 0 *)
Definition free_calls (n : nat) (b : blocks) : list nat :=
  [b_anum b; b_znum b; b_maxw b] ++ flat_map (fun _ => [b_n0c b 0%nat; b_t0c b 0%nat]) (seq 0 n) ++ [b_n0 b; b_t0 b].

(** ** N0_1D.c *)
Record n1d := N1 { n1_nsp : nat; n1_n0 : nat -> linint1D; n1_t0 : nat -> linint1D }.
(** the copy loops (45-48, 50-53): the loop variable shadows the species index, so the source
    index is that of the copy *)
Definition copied (n : Z) (src : Z -> R) (species : nat) : arr := Arr n src.
(** N0_1D.c:30-72 *)
Definition N0_1D_init (nrho : Z) (mn mx : R) (nsp : nat) (density temperature : Z -> R) : n1d :=
  N1 nsp (fun i => linint1D_init (copied nrho density i) nrho NATURALBC mn mx)
         (fun i => linint1D_init (copied nrho temperature i) nrho NATURALBC mn mx).
(** the evaluation loops: error, and the output array ([old] before the call); an access
    outside a table makes the outcome undefined *)
Definition isE {A} (r : res A) : bool := match r with Err => true | _ => false end.
Definition isO {A} (r : res A) : bool := match r with Oob => true | _ => false end.
Definition eval_all (nsp : nat) (ev : nat -> res R) (line : Z) (ef : error_file) (old : nat -> R) : option (Z * (nat -> R)) :=
  if existsb (fun i => isO (ev i)) (seq 0 nsp) then None
  else Some (if existsb (fun i => isE (ev i)) (seq 0 nsp) then error_raise ERR_INPUT_EVALUATION line ef else 0%Z,
             fun i => if (i <? nsp)%nat then match ev i with Val v => v | _ => old i end else old i).
(** N0_1D.c:112-124, 138-150 *)
Definition N0_1D_eval_n0 (d : n1d) (rho : R) := eval_all (n1_nsp d) (fun i => linint1D_eval_f (n1_n0 d i) rho) 120 EF_N0_1D.
Definition N0_1D_eval_t0 (d : n1d) (rho : R) := eval_all (n1_nsp d) (fun i => linint1D_eval_f (n1_t0 d i) rho) 146 EF_N0_1D.

(** ** N0_3D.c *)
Record n3d := N3 { n3_nsp : nat; n3_n0 : nat -> linint3D; n3_t0 : nat -> linint3D }.
(** N0_3D.c:22-75 *)
Definition N0_3D_init (nr : Z) (rmn rmx : R) (nphi : Z) (pmn pmx : R) (nz : Z) (zmn zmx : R) (nsp : nat) (density temperature : Z -> R) : n3d :=
  let lin := fun src i => linint3D_init (copied (nr * nphi * nz) src i) nr nphi nz NATURALBC PERIODICBC NATURALBC rmn rmx pmn pmx zmn zmx in
  N3 nsp (lin density) (lin temperature).
(** N0_3D.c:116-128, 144-156 *)
Definition N0_3D_eval_n0 (d : n3d) (r phi z : R) := eval_all (n3_nsp d) (fun i => linint3D_eval_f (n3_n0 d i) r phi z) 124 EF_N0_3D.
Definition N0_3D_eval_t0 (d : n3d) (r phi z : R) := eval_all (n3_nsp d) (fun i => linint3D_eval_f (n3_t0 d i) r phi z) 152 EF_N0_3D.

(** ** neutral.c *)
Inductive neutral := Nt1D (d : n1d) | Nt3D (d : n3d) | Ntother.
Definition first_default (v : R) (r : option (Z * (nat -> R))) : option (Z * (nat -> R)) :=
  match r with
  | Some (e, f) => Some (e, if (e =? 0)%Z then f else fun i => if (i =? 0)%nat then v else f i)
  | None => None
  end.
(** neutral.c:73-97 *)
Definition neutral_eval_n0 (nd : neutral) (rho r phi z : R) (old : nat -> R) : option (Z * (nat -> R)) :=
  first_default 0 match nd with
  | Nt1D d => N0_1D_eval_n0 d rho old
  | Nt3D d => N0_3D_eval_n0 d r phi z old
  | Ntother => Some (error_raise ERR_UNKNOWN_INPUT 86 EF_NEUTRAL, old)
  end.
(** neutral.c:115-139 *)
Definition neutral_eval_t0 (nd : neutral) (rho r phi z : R) (old : nat -> R) : option (Z * (nat -> R)) :=
  first_default 1 match nd with
  | Nt1D d => N0_1D_eval_t0 d rho old
  | Nt3D d => N0_3D_eval_t0 d r phi z old
  | Ntother => Some (error_raise ERR_UNKNOWN_INPUT 128 EF_NEUTRAL, old)
  end.
(** neutral.c:150-162 *)
Definition neutral_get_n_species (nd : neutral) : nat := match nd with Nt1D d => n1_nsp d | Nt3D d => n3_nsp d | Ntother => 0%nat end.
