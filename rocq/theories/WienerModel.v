(** Model of the Brownian-bridge history.
    Source: src/simulate/mccc/mccc_wiener.c:36-210.

    Real numbers are exact.  The five components of a value are treated alike
    by the C code (loops over MCCC_NDIM), so a value is an element of a type V
    with addition and scaling; V = R^5 is the concrete case.  MCCC_EMPTY (-1)
    is [None]; using it as an array index is undefined behaviour. *)
From Coq Require Import Reals List.
Import ListNotations.
Local Open Scope R_scope.

Section Wiener.
Context {V : Type} (vzero : V) (vadd : V -> V -> V) (vscal : R -> V -> V).
Context (N : nat).   (* MCCC_NSLOTS *)

Record warr := mkw { nextslot : nat -> option nat; wtime : nat -> R; wval : nat -> V }.

Definition wupd {A} (f : nat -> A) (a : nat) (v : A) : nat -> A :=
  fun x => if Nat.eqb x a then v else f x.

(** mccc_wiener.c:36-49; other times and values stay uninitialised, which the
    arbitrary [w0] stands for. *)
Definition w_init (w0 : warr) (t0 : R) : warr :=
  mkw (fun i => if Nat.eqb i 0 then Some 0%nat
                else if Nat.ltb i N then None else nextslot w0 i)
      (wupd (wtime w0) 0 t0) (wupd (wval w0) 0 vzero).

(** mccc_wiener.c:76-101: result of the search loop. *)
Inductive found := FUB | FExists (i : nat) | FBetween (im : nat) (ip : option nat).
Fixpoint w_find (w : warr) (t : R) (fuel idx im : nat) : found :=
  match fuel with
  | O => FBetween im None
  | S fuel' =>
      if Req_EM_T (wtime w idx) t then FExists idx else
      let im' := if Rlt_dec (wtime w idx) t then idx else im in
      match nextslot w idx with
      | None => FUB
      | Some nx =>
          if Rlt_dec t (wtime w nx) then FBetween im' (Some nx)
          else if Nat.eqb nx idx then FBetween im' None
          else w_find w t fuel' nx im'
      end
  end.

(** mccc_wiener.c:105-111: first empty slot, 0 if none. *)
Fixpoint w_empty (w : warr) (i fuel : nat) : nat :=
  match fuel with
  | O => 0
  | S fuel' => match nextslot w i with None => i | Some _ => w_empty w (S i) fuel' end
  end.

(** mccc_wiener.c:66-159.  [GUB] undefined behaviour, [GErr] ERR_WIENER_ARRAY
    (array untouched), [GOk w i] new array and index of the value. *)
Inductive gres := GUB | GErr (w : warr) | GOk (w : warr) (i : nat).
Definition w_generate (w : warr) (t : R) (rnd : V) : gres :=
  match w_find w t N 0 0 with
  | FUB => GUB
  | FExists i => GOk w i
  | FBetween im ip =>
      let e := w_empty w 0 N in
      if Nat.eqb e 0 then GErr w else
      match ip with
      | None =>
          GOk (mkw (wupd (wupd (nextslot w) e (Some e)) im (Some e))
                   (wupd (wtime w) e t)
                   (wupd (wval w) e
                      (vadd (wval w im) (vscal (sqrt (t - wtime w im)) rnd)))) e
      | Some ip =>
          let tm := wtime w im in let tp := wtime w ip in
          GOk (mkw (wupd (wupd (nextslot w) e (Some ip)) im (Some e))
                   (wupd (wtime w) e t)
                   (wupd (wval w) e
                      (vadd (vadd (wval w im)
                         (vscal ((t - tm) / (tp - tm))
                            (vadd (wval w ip) (vscal (-1) (wval w im)))))
                         (vscal (sqrt ((t - tm) * (tp - t) / (tp - tm))) rnd)))) e
      end
  end.

(** mccc_wiener.c:178-192: the removal loop; returns array, index, error. *)
Inductive cres := CUB | CRes (w : warr) (idx : nat) (err : bool).
Fixpoint w_drop (w : warr) (t : R) (fuel idx : nat) : cres :=
  match fuel with
  | O => CUB     (* never reached: the chain has at most N elements *)
  | S fuel' =>
      if Rlt_dec (wtime w idx) t then
        match nextslot w idx with
        | None => CUB
        | Some nx =>
            if Nat.eqb idx nx then CRes w idx true
            else w_drop (mkw (wupd (nextslot w) idx None) (wtime w) (wval w)) t fuel' nx
        end
      else CRes w idx false
  end.

(** mccc_wiener.c:173-210: (array, error), [None] undefined. *)
Definition w_clean (w : warr) (t : R) : option (warr * bool) :=
  match w_drop w t (S N) 0 with
  | CUB => None
  | CRes w' idx err =>
      if (negb (Nat.eqb idx 0) && negb err)%bool then
        let n1 := wupd (nextslot w') 0 (nextslot w' idx) in
        let n2 := match n1 idx with
                  | Some j => if Nat.eqb j idx then wupd n1 0 (Some 0%nat) else n1
                  | None => n1
                  end in
        Some (mkw (wupd n2 idx None) (wupd (wtime w') 0 (wtime w' idx))
                  (wupd (wval w') 0 (wval w' idx)), false)
      else Some (w', err)
  end.
End Wiener.
Arguments warr V : clear implicits.
