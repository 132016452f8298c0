(** Model of the linked list of integers.  Source: src/list.c *)
From Coq Require Import ZArith List Arith.
Import ListNotations.

(** Outcome of running C code: a value, undefined behaviour, or the model's
    traversal bound being too small (never a normal value). *)
Inductive res (A : Type) : Type := Ret (a : A) | UB | Fuel.
Arguments Ret {A} _. Arguments UB {A}. Arguments Fuel {A}.

Definition bind {A B} (x : res A) (f : A -> res B) : res B :=
  match x with Ret a => f a | UB => UB | Fuel => Fuel end.

(** src/list.h: struct list_int_node.  [None] data = never written. *)
Record node := mk { data : option Z; next : option nat }.

(** Heap restricted to list nodes; [None] = not allocated (or freed). *)
Definition heap := nat -> option node.
Definition upd (h : heap) (a : nat) (c : option node) : heap :=
  fun b => if Nat.eqb b a then c else h b.

Definition load (h : heap) (a : nat) : res node :=
  match h a with Some n => Ret n | None => UB end.

(** free(3): undefined on an address that is not allocated. *)
Definition free (h : heap) (a : nat) : res heap :=
  match h a with Some _ => Ret (upd h a None) | None => UB end.

(** list.c:16-21 list_int_create; [a] is the address malloc returned. *)
Definition list_create (h : heap) (a : nat) : heap :=
  upd h a (Some (mk (Some 0%Z) None)).

(** list.c:49-52: the while loop of list_int_add, also used by list_int_size. *)
Fixpoint last_node (fuel : nat) (h : heap) (p : nat) : res nat :=
  match fuel with
  | O => Fuel
  | S f => bind (load h p) (fun n =>
      match next n with None => Ret p | Some q => last_node f h q end)
  end.

(** list.c:48-59 list_int_add; [a] is the address malloc returned.  The new
    node's data field is left unwritten, the value goes to the old last node. *)
Definition list_add (fuel : nat) (h : heap) (p : nat) (v : Z) (a : nat) : res heap :=
  bind (last_node fuel h p) (fun l =>
    let h1 := upd h a (Some (mk None None)) in
    bind (load h1 l) (fun n =>
      Ret (upd h1 l (Some (mk (Some v) (Some a)))))).

(** list.c:69-77 list_int_get. *)
Fixpoint list_get (h : heap) (p : nat) (i : nat) : res Z :=
  match i with
  | O => bind (load h p) (fun n => match data n with Some d => Ret d | None => UB end)
  | S j => bind (load h p) (fun n =>
      match next n with Some q => list_get h q j | None => UB end)
  end.

(** list.c:86-94 list_int_size. *)
Fixpoint list_size (fuel : nat) (h : heap) (p : nat) : res nat :=
  match fuel with
  | O => Fuel
  | S f => bind (load h p) (fun n =>
      match next n with
      | None => Ret 0
      | Some q => bind (list_size f h q) (fun k => Ret (S k)) end)
  end.

(** list.c:33-37: loop of list_int_free, [k] remaining iterations. *)
Fixpoint free_loop (k : nat) (h : heap) (nd : nat) (nx : option nat)
  : res (heap * nat) :=
  match k with
  | O => Ret (h, nd)
  | S k' => bind (free h nd) (fun h1 =>
      match nx with
      | None => UB
      | Some q => bind (load h1 q) (fun n => free_loop k' h1 q (next n))
      end)
  end.

(** list.c:28-40 list_int_free. *)
Definition list_free (fuel : nat) (h : heap) (p : nat) : res heap :=
  bind (list_size fuel h p) (fun n =>
  bind (load h p) (fun nd =>
  bind (free_loop n h p (next nd)) (fun '(h1, last) => free h1 last))).
