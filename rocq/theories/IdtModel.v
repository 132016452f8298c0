(** Initial time steps: simulate_fo_fixed_inidt, simulate_gc_fixed_inidt, simulate_gc_adaptive_inidt and
    simulate_ml_adaptive_inidt.  Exact arithmetic; CONST_2PI is 2 pi; None is the infinite result of a division by zero. *)
From Coq Require Import Reals ZArith Bool.
From Verif Require Import Vec PhysModel.
Local Open Scope R_scope.

(** the fields of sim_data that are read *)
Record idt_opt := mkidt { usrdef_use : bool; usrdef_val : R; gyrodef_nstep : Z; orbfol : bool; clmbcol : bool }.
Definition over (x y : R) : option R := if Req_EM_T y 0 then None else Some (x / y).
Definition obind (x : option R) (f : R -> option R) : option R := match x with Some x => f x | None => None end.
(** simulate_fo_fixed.c:236-254 *)
Definition fo_fixed_inidt (o : idt_opt) (m q : R) (B p : vec) : option R :=
  if usrdef_use o then Some (usrdef_val o)
  else let gyrotime := over (2 * PI) (gyrofreq_pnorm m q (norm p) (norm B)) in
       obind gyrotime (fun g => over g (IZR (gyrodef_nstep o))).
(** simulate_gc_fixed.c:249-266 *)
Definition gc_fixed_inidt (o : idt_opt) (m q mu ppar : R) (B : vec) : option R :=
  if usrdef_use o then Some (usrdef_val o)
  else let gyrotime := over (2 * PI) (gyrofreq_ppar m q mu ppar (norm B)) in
       obind gyrotime (fun g => over g (IZR (gyrodef_nstep o))).
Definition DUMMY_TIMESTEP_VAL : R := 1.
(** if(h > x) h = x, x may be infinite *)
Definition least (h : R) (x : option R) : R := match x with Some x => if Rlt_dec x h then x else h | None => h end.
(** simulate_gc_adaptive.c:335-367 *)
Definition gc_adaptive_inidt (o : idt_opt) (m q mu ppar : R) (B : vec) : R :=
  let h := DUMMY_TIMESTEP_VAL in
  if usrdef_use o then usrdef_val o
  else let h := if orbfol o then least h (over (2 * PI) (gyrofreq_ppar m q mu ppar (norm B))) else h in
       if clmbcol o then let nu := 1 in least h (over 1 (100 * nu)) else h.
(** simulate_ml_adaptive.c:234-242 *)
Definition ml_adaptive_inidt : R := 1e-2.
