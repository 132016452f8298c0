(** Model of the mode selection and of the hybrid hand-over in src/simulate.c:203-296.

    The two simulation phases are executions of the marker queue (QueueModel); the wall
    test between guiding centre and particle position is given from outside. *)
From Coq Require Import ZArith List Bool.
From Verif Require Import QueueModel EndcondModel.
Import ListNotations.

Section hybrid.
Context {P : Type} (hit : entry P -> Z) (set_tile : Z -> P -> P).
(** simulate.c:244-263, one marker *)
Definition with_endcond (e : entry P) (c : Z) : entry P := mkentry (e_id e) c (e_err e) (e_pay e).
Definition screen (e : entry P) : entry P * bool :=
  if (e_endcond e =? endcond_hybrid)%Z then
    if (0 <? hit e)%Z then (mkentry (e_id e) (Z.lor (e_endcond e) endcond_wall) (e_err e) (set_tile (hit e) (e_pay e)), false)
    else (e, true)
  else (e, false).
Definition count_new (n : nat) (es : nat -> entry P) : nat := length (filter (fun i => snd (screen (es i))) (seq 0 n)).
(** simulate.c:266-272 *)
Definition clear (e : entry P) : entry P :=
  if negb (Z.land (e_endcond e) endcond_hybrid =? 0)%Z then with_endcond e (Z.lxor (e_endcond e) endcond_hybrid) else e.
(** the queue entries at the end of the loop of 244-263, and whether particles are simulated *)
Definition screened (es : nat -> entry P) : nat -> entry P := fun i => fst (screen (es i)).
Definition cleared (es : nat -> entry P) : nat -> entry P := fun i => clear (screened es i).
End hybrid.

(** simulate.c:203-296 in hybrid mode: [DG], [DF] slot data of the two phases *)
Section run.
Context {P DG DF : Type} (n T W : nat) (hit : entry P -> Z) (set_tile : Z -> P -> P)
  (loadG : entry P -> @loaded DG) (storeG : DG -> entry P -> entry P) (simG : DG -> DG -> bool -> Prop)
  (loadF : entry P -> @loaded DF) (storeF : DF -> entry P -> entry P) (simF : DF -> DF -> bool -> Prop).
Inductive hybrid_run (qs : nat -> entry P) : (nat -> entry P) -> Prop :=
| hr_gc_only trG sG : exec n T W false loadG storeG simG (init qs) trG sG -> all_done T sG ->
    count_new hit set_tile n (ents sG) = 0 -> hybrid_run qs (screened hit set_tile (ents sG))
| hr_both trG sG trF sF : exec n T W false loadG storeG simG (init qs) trG sG -> all_done T sG ->
    0 < count_new hit set_tile n (ents sG) ->
    exec n T W true loadF storeF simF (init (cleared hit set_tile (ents sG))) trF sF -> all_done T sF -> hybrid_run qs (ents sF).
End run.
