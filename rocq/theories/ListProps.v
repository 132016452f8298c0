From Coq Require Import ZArith List Lia.
From Verif Require Import ListModel ListProofs.
Import ListNotations.

(** C02 *)
Theorem list_size_is_number_added : forall vs own h p fuel,
  built vs own h p -> length vs < fuel -> list_size fuel h p = Ret (length vs).
Proof. exact built_size. Qed.
Print Assumptions list_size_is_number_added.

Theorem list_get_is_ith_added : forall vs own h p i v,
  built vs own h p -> nth_error vs i = Some v -> list_get h p i = Ret v.
Proof. exact built_get. Qed.
Print Assumptions list_get_is_ith_added.

Theorem list_add_never_undefined : forall vs own h p v a fuel,
  built vs own h p -> h a = None -> length vs < fuel ->
  exists h', list_add fuel h p v a = Ret h'.
Proof. exact built_add_ok. Qed.
Print Assumptions list_add_never_undefined.

Theorem list_free_exactly_once : forall vs own h p fuel,
  built vs own h p -> length vs < fuel ->
  exists h', list_free fuel h p = Ret h' /\
    (forall a, In a own -> h a <> None /\ h' a = None) /\
    (forall a, ~ In a own -> h' a = h a).
Proof. exact list_free_built. Qed.
Print Assumptions list_free_exactly_once.

Theorem list_get_at_size_undefined : forall vs own h p,
  built vs own h p -> vs <> [] -> list_get h p (length vs) = UB.
Proof. exact built_get_at_size. Qed.
Print Assumptions list_get_at_size_undefined.

Theorem list_get_beyond_size_undefined : forall vs own h p i,
  built vs own h p -> length vs < i -> list_get h p i = UB.
Proof. exact built_get_beyond. Qed.
Print Assumptions list_get_beyond_size_undefined.

(** A three-element list among unrelated heap changes. *)
Example list_history_ex : exists h, built [7; -3; 9]%Z [4; 2; 8; 6] h 4.
Proof.
  eexists. change [7; -3; 9]%Z with (([] ++ [7]) ++ [-3] ++ [9])%Z.
  rewrite app_assoc. change [4; 2; 8; 6] with ((([4] ++ [2]) ++ [8]) ++ [6]).
  eapply built_add with (fuel := 9).
  - eapply built_add with (fuel := 9).
    + eapply built_other with (h' := upd _ 5 (Some (mk (Some 1%Z) None))).
      * eapply built_add with (fuel := 9).
        -- apply built_create with (h := fun _ => None). reflexivity.
        -- reflexivity.
        -- reflexivity.
      * intros a [<-|[<-|[]]]; reflexivity.
    + reflexivity.
    + reflexivity.
  - reflexivity.
  - reflexivity.
Qed.
