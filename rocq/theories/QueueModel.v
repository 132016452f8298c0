(** Model of the shared marker queue.  Source: src/particle.c:268-340 (FO),
    367-434 (GC), 461-528 (ML) and the calling loops
    src/simulate/simulate_fo_fixed.c:62-102,200-216 (and the GC/ML analogues:
    dummy slots, cycle, then "while(n_running > 0) { simulate; cycle }").

    Threads interleave at the granularity of: one critical section, one queue
    entry access, one check.  The GPU build is not modelled. *)
From Coq Require Import ZArith List Bool.
Import ListNotations.

Definition upd {A} (f : nat -> A) (a : nat) (v : A) : nat -> A :=
  fun x => if Nat.eqb x a then v else f x.
Definition upd2 {A} (f : nat -> nat -> A) (a b : nat) (v : A) : nat -> nat -> A :=
  fun x y => if (Nat.eqb x a && Nat.eqb y b)%bool then v else f x y.

Section Queue.
(** [P] payload of a particle_state, [D] the data of one SIMD slot. *)
Context {P D : Type}.

(** particle.h particle_state: the fields the queue code looks at. *)
Record entry := mkentry { e_id : Z; e_endcond : Z; e_err : Z; e_pay : P }.
(** One lane of particle_simd_*; [sl_index] is uninitialised in a dummy. *)
Record slot := mkslot { sl_running : bool; sl_id : Z; sl_index : option nat;
                        sl_data : option D }.

(** particle_state_to_{fo,gc,ml} (particle.c:659-728, 871-920, 1052-1097):
    an early error (the state's own error flag) leaves the slot alone; a late
    one (field evaluation, FO only) has already overwritten the slot's id. *)
Inductive loaded := LEarly (e : Z) | LLate (e : Z) | LOk (d : D).

Context (n T W : nat)           (* markers, threads, slots per thread *)
        (chk : bool)            (* loader looks at endcond: true only for FO *)
        (load : entry -> loaded)
        (store : D -> entry -> entry)   (* particle_*_to_state *)
        (sim : D -> D -> bool -> Prop). (* one time step of a running marker:
                                           new data, still running? *)

(** Where a thread is inside cycle / the main loop. *)
Inductive pc :=
| PCheck (i : nat)          (* top of the slot loop *)
| PStore (i : nat)          (* about to convert the finished marker *)
| PFin (i k : nat)          (* about to do q->finished++ *)
| PFetch (i : nat)          (* about to do i_prt = q->next++ *)
| PLoad (i k : nat)         (* i_prt = k *)
| PSim                      (* body of the main loop *)
| PDone.

Inductive ev :=
| EFetch (t i k : nat) | ESkip (t i k : nat) | EFail (t i k : nat) (e : Z)
| ELoad (t i k : nat) | EStore (t i k : nat) (d : D) | EFin (t i k : nat).

Record sys := mksys { nxt : nat; fin : nat; ents : nat -> entry;
                      pcs : nat -> pc; slots : nat -> nat -> slot }.

Definition with_err (e : entry) (x : Z) : entry :=
  mkentry (e_id e) (e_endcond e) x (e_pay e).
Definition dummy : slot := mkslot false (-1) None None.

Definition init (qs : nat -> entry) : sys :=
  mksys 0 0 qs (fun _ => PCheck 0) (fun _ _ => dummy).

(** particle.c:275-294: what to do with slot i.  Condition 1 reads q->next
    outside the critical section. *)
Definition check (s : sys) (t i : nat) : pc :=
  let sl := slots s t i in
  if (negb (sl_running sl) && (0 <=? sl_id sl)%Z)%bool then PStore i
  else if ((sl_id sl <? 0)%Z && Nat.ltb (nxt s) n)%bool then PFetch i
  else PCheck (S i).

Definition n_running (s : sys) (t : nat) : nat :=
  length (filter (fun i => sl_running (slots s t i)) (seq 0 W)).

Definition goto (s : sys) (t : nat) (p : pc) : sys :=
  mksys (nxt s) (fin s) (ents s) (upd (pcs s) t p) (slots s).

Inductive step : sys -> list ev -> sys -> Prop :=
| st_check s t i : t < T -> pcs s t = PCheck i -> i < W ->
    step s [] (goto s t (check s t i))
(* particle.c:333-339 and the while condition *)
| st_end s t : t < T -> pcs s t = PCheck W ->
    step s [] (goto s t (if Nat.ltb 0 (n_running s t) then PSim else PDone))
(* particle.c:288-290 *)
| st_store s t i k d : t < T -> pcs s t = PStore i ->
    sl_index (slots s t i) = Some k -> k < n -> sl_data (slots s t i) = Some d ->
    step s [EStore t i k d]
      (mksys (nxt s) (fin s) (upd (ents s) k (store d (ents s k)))
             (upd (pcs s) t (PFin i k)) (slots s))
(* particle.c:291-292, 310-311, 319-320 *)
| st_fin s t i k : t < T -> pcs s t = PFin i k ->
    step s [EFin t i k]
      (mksys (nxt s) (S (fin s)) (ents s) (upd (pcs s) t (PFetch i)) (slots s))
(* particle.c:299-301 *)
| st_fetch s t i : t < T -> pcs s t = PFetch i ->
    step s [EFetch t i (nxt s)]
      (mksys (S (nxt s)) (fin s) (ents s) (upd (pcs s) t (PLoad i (nxt s))) (slots s))
(* particle.c:303-308 *)
| st_dummy s t i k : t < T -> pcs s t = PLoad i k -> n <= k ->
    step s []
      (mksys (nxt s) (fin s) (ents s) (upd (pcs s) t (PCheck (S i)))
             (upd2 (slots s) t i
                (mkslot false (-1) (sl_index (slots s t i)) (sl_data (slots s t i)))))
(* particle.c:309-312, FO only *)
| st_skip s t i k : t < T -> pcs s t = PLoad i k -> k < n ->
    chk = true -> e_endcond (ents s k) <> 0%Z ->
    step s [ESkip t i k] (goto s t (PFin i k))
(* particle.c:315-321 *)
| st_early s t i k e : t < T -> pcs s t = PLoad i k -> k < n ->
    (chk = true -> e_endcond (ents s k) = 0%Z) -> load (ents s k) = LEarly e ->
    step s [EFail t i k e]
      (mksys (nxt s) (fin s) (upd (ents s) k (with_err (ents s k) e))
             (upd (pcs s) t (PFin i k)) (slots s))
| st_late s t i k e : t < T -> pcs s t = PLoad i k -> k < n ->
    (chk = true -> e_endcond (ents s k) = 0%Z) -> load (ents s k) = LLate e ->
    step s [EFail t i k e]
      (mksys (nxt s) (fin s) (upd (ents s) k (with_err (ents s k) e))
             (upd (pcs s) t (PFin i k))
             (upd2 (slots s) t i
                (mkslot (sl_running (slots s t i)) (e_id (ents s k))
                        (sl_index (slots s t i)) (sl_data (slots s t i)))))
(* particle.c:323-327; running = !endcond (particle.c:716-719) *)
| st_load s t i k d : t < T -> pcs s t = PLoad i k -> k < n ->
    (chk = true -> e_endcond (ents s k) = 0%Z) -> load (ents s k) = LOk d ->
    step s [ELoad t i k]
      (mksys (nxt s) (fin s) (ents s) (upd (pcs s) t (PCheck (S i)))
             (upd2 (slots s) t i
                (mkslot (e_endcond (ents s k) =? 0)%Z (e_id (ents s k)) (Some k) (Some d))))
(* main loop body: running slots advance independently, nothing else changes *)
| st_sim s t (new : nat -> slot) : t < T -> pcs s t = PSim ->
    (forall i, i < W ->
       if sl_running (slots s t i)
       then exists d d' r, sl_data (slots s t i) = Some d /\ sim d d' r /\
            new i = mkslot r (sl_id (slots s t i)) (sl_index (slots s t i)) (Some d')
       else new i = slots s t i) ->
    step s []
      (mksys (nxt s) (fin s) (ents s) (upd (pcs s) t (PCheck 0))
             (fun t' i => if (Nat.eqb t' t && Nat.ltb i W)%bool then new i
                          else slots s t' i)).

(** Any finite interleaving. *)
Inductive exec (s0 : sys) : list ev -> sys -> Prop :=
| ex_nil : exec s0 [] s0
| ex_step tr s e s' : exec s0 tr s -> step s e s' -> exec s0 (tr ++ e) s'.

Definition all_done (s : sys) : Prop := forall t, t < T -> pcs s t = PDone.

(** ** Specification: what simulating one marker on its own may produce. *)
Inductive simulated : D -> D -> Prop :=
| simd_stop d d' : sim d d' false -> simulated d d'
| simd_more d d1 d' : sim d d1 true -> simulated d1 d' -> simulated d d'.

Inductive outcome (e : entry) : entry -> Prop :=
| out_skip : chk = true -> e_endcond e <> 0%Z -> outcome e e
| out_fail x : (chk = true -> e_endcond e = 0%Z) ->
    load e = LEarly x \/ load e = LLate x -> outcome e (with_err e x)
| out_run d0 d : e_endcond e = 0%Z -> load e = LOk d0 -> simulated d0 d ->
    outcome e (store d e).
End Queue.
Arguments entry P : clear implicits.
Arguments slot D : clear implicits.
Arguments sys P D : clear implicits.
Arguments ev D : clear implicits.
