(** Runge-Kutta methods in general, their order conditions, and the methods of
    step_gc_rk4.c, step_gc_cashkarp.c and step_ml_cashkarp.c. *)
From Coq Require Import Reals ZArith List Lra Lia Psatz Bool FunctionalExtensionality.
From Verif Require Import Vec PhysModel GcModel.
Import ListNotations.
Local Open Scope R_scope.

(** ** Explicit Runge-Kutta methods *)
Record tableau := Tab { ta : list (list R); tb : list R; tc : list R }.
Fixpoint comb (a : list R) (ks : list (nat -> R)) (j : nat) : R :=
  match a, ks with a1 :: a', k :: ks' => a1 * k j + comb a' ks' j | _, _ => 0 end.
Fixpoint stages (rows : list (list R)) (cs : list R) (f : R -> (nat -> R) -> nat -> R) (t h : R) (y : nat -> R) (ks : list (nat -> R)) : list (nat -> R) :=
  match rows, cs with
  | a :: rows', c :: cs' => stages rows' cs' f t h y (ks ++ [f (t + c * h) (fun j => y j + h * comb a ks j)])
  | _, _ => ks
  end.
Definition runge_kutta (T : tableau) (b : list R) (f : R -> (nat -> R) -> nat -> R) (t h : R) (y : nat -> R) : nat -> R :=
  fun j => y j + h * comb b (stages (ta T) (tc T) f t h y []) j.
(** order conditions *)
Fixpoint dotl (a b : list R) : R := match a, b with x :: a', y :: b' => x * y + dotl a' b' | _, _ => 0 end.
Fixpoint had (a b : list R) : list R := match a, b with x :: a', y :: b' => x * y :: had a' b' | _, _ => [] end.
Definition mulA (A : list (list R)) (v : list R) : list R := map (fun row => dotl row v) A.
Definition row_sums (T : tableau) : Prop := tc T = map (fun row => fold_right Rplus 0 row) (ta T).
Definition order4 (T : tableau) (b : list R) : Prop :=
  let A := mulA (ta T) in let c := tc T in let c2 := had c c in let c3 := had c c2 in
  fold_right Rplus 0 b = 1 /\ dotl b c = 1 / 2 /\
  dotl b c2 = 1 / 3 /\ dotl b (A c) = 1 / 6 /\
  dotl b c3 = 1 / 4 /\ dotl b (had c (A c)) = 1 / 8 /\ dotl b (A c2) = 1 / 12 /\ dotl b (A (A c)) = 1 / 24.
Definition order5 (T : tableau) (b : list R) : Prop :=
  let A := mulA (ta T) in let c := tc T in let c2 := had c c in let c3 := had c c2 in
  order4 T b /\
  dotl b (had c2 c2) = 1 / 5 /\ dotl b (had c2 (A c)) = 1 / 10 /\ dotl b (had c (A c2)) = 1 / 15 /\
  dotl b (had c (A (A c))) = 1 / 30 /\ dotl b (had (A c) (A c)) = 1 / 20 /\ dotl b (A c3) = 1 / 20 /\
  dotl b (A (had c (A c))) = 1 / 40 /\ dotl b (A (A c2)) = 1 / 60 /\ dotl b (A (A (A c))) = 1 / 120.

Definition classical : tableau :=
  Tab [[]; [1 / 2]; [0; 1 / 2]; [0; 0; 1]] [1 / 6; 1 / 3; 1 / 3; 1 / 6] [0; 1 / 2; 1 / 2; 1].
Definition cash_karp : tableau :=
  Tab [[]; [1 / 5]; [3 / 40; 9 / 40]; [3 / 10; -9 / 10; 6 / 5]; [-11 / 54; 5 / 2; -70 / 27; 35 / 27];
       [1631 / 55296; 175 / 512; 575 / 13824; 44275 / 110592; 253 / 4096]]
      [37 / 378; 0; 250 / 621; 125 / 594; 0; 512 / 1771] [0; 1 / 5; 3 / 10; 3 / 5; 1; 7 / 8].
Definition cash_karp4 : list R := [2825 / 27648; 0; 18575 / 48384; 13525 / 55296; 277 / 14336; 1 / 4].

Ltac ord := unfold order5, order4, row_sums; cbv zeta; cbn [ta tb tc mulA map dotl had fold_right classical cash_karp cash_karp4]; repeat split; try field; try (repeat (apply f_equal2; [field|]); reflexivity).
Lemma classical_rows : row_sums classical.
Proof. unfold row_sums, classical. cbn. repeat (apply f_equal2; [field|]). reflexivity. Qed.
Lemma classical_order : order4 classical (tb classical).
Proof. ord. Qed.
Lemma cash_karp_rows : row_sums cash_karp.
Proof. unfold row_sums, cash_karp. cbn. repeat (apply f_equal2; [field|]). reflexivity. Qed.
Lemma cash_karp_order5 : order5 cash_karp (tb cash_karp).
Proof. ord. Qed.
Lemma cash_karp_order4 : order4 cash_karp cash_karp4.
Proof. ord. Qed.

(** ** The code's stages are these methods *)
Lemma rk4_is : forall f t h y, rk4 (0%Z, f t y) (fun s z => (0%Z, f s z)) t h y = (0%Z, runge_kutta classical (tb classical) f t h y).
Proof.
  intros f t h y. unfold rk4, next, runge_kutta. cbn [Z.eqb ta tb tc classical stages app comb].
  f_equal. extensionality j.
  replace (t + 0 * h) with t by ring. replace (fun j0 => y j0 + h * 0) with y by (extensionality j0; ring).
  set (k1 := f t y). replace (t + 1 / 2 * h) with (t + h / 2) by field. replace (t + 1 * h) with (t + h) by ring.
  replace (fun j0 => y j0 + h * (1 / 2 * k1 j0 + 0)) with (fun j0 => y j0 + h * k1 j0 / 2) by (extensionality j0; field).
  set (k2 := f (t + h / 2) (fun j0 => y j0 + h * k1 j0 / 2)).
  replace (fun j0 => y j0 + h * (0 * k1 j0 + (1 / 2 * k2 j0 + 0))) with (fun j0 => y j0 + h * k2 j0 / 2) by (extensionality j0; field).
  set (k3 := f (t + h / 2) (fun j0 => y j0 + h * k2 j0 / 2)).
  replace (fun j0 => y j0 + h * (0 * k1 j0 + (0 * k2 j0 + (1 * k3 j0 + 0)))) with (fun j0 => y j0 + h * k3 j0) by (extensionality j0; field).
  field.
Qed.
Lemma cashkarp_is : forall f t h y, cashkarp (0%Z, f t y) (fun s z => (0%Z, f s z)) t h y =
  (0%Z, f t y, runge_kutta cash_karp (tb cash_karp) f t h y, runge_kutta cash_karp cash_karp4 f t h y).
Proof.
  intros f t h y. unfold cashkarp, next, runge_kutta. cbn [Z.eqb ta tb tc cash_karp cash_karp4 stages app comb].
  replace (t + 0 * h) with t by ring. replace (fun j0 => y j0 + h * 0) with y by (extensionality j0; ring).
  set (k1 := f t y).
  replace (fun j0 => y j0 + h * (1 / 5 * k1 j0 + 0)) with (fun j0 => y j0 + h * (1 / 5 * k1 j0)) by (extensionality j0; field).
  set (k2 := f (t + 1 / 5 * h) (fun j0 => y j0 + h * (1 / 5 * k1 j0))).
  replace (fun j0 => y j0 + h * (3 / 40 * k1 j0 + (9 / 40 * k2 j0 + 0))) with (fun j0 => y j0 + h * (3 / 40 * k1 j0 + 9 / 40 * k2 j0)) by (extensionality j0; field).
  set (k3 := f (t + 3 / 10 * h) _).
  replace (fun j0 => y j0 + h * (3 / 10 * k1 j0 + (-9 / 10 * k2 j0 + (6 / 5 * k3 j0 + 0)))) with (fun j0 => y j0 + h * (3 / 10 * k1 j0 + -9 / 10 * k2 j0 + 6 / 5 * k3 j0)) by (extensionality j0; field).
  set (k4 := f (t + 3 / 5 * h) _). replace (t + 1 * h) with (t + h) by ring.
  replace (fun j0 => y j0 + h * (-11 / 54 * k1 j0 + (5 / 2 * k2 j0 + (-70 / 27 * k3 j0 + (35 / 27 * k4 j0 + 0)))))
    with (fun j0 => y j0 + h * (-11 / 54 * k1 j0 + 5 / 2 * k2 j0 + -70 / 27 * k3 j0 + 35 / 27 * k4 j0)) by (extensionality j0; field).
  set (k5 := f (t + h) _).
  replace (fun j0 => y j0 + h * (1631 / 55296 * k1 j0 + (175 / 512 * k2 j0 + (575 / 13824 * k3 j0 + (44275 / 110592 * k4 j0 + (253 / 4096 * k5 j0 + 0))))))
    with (fun j0 => y j0 + h * (1631 / 55296 * k1 j0 + 175 / 512 * k2 j0 + 575 / 13824 * k3 j0 + 44275 / 110592 * k4 j0 + 253 / 4096 * k5 j0)) by (extensionality j0; field).
  set (k6 := f (t + 7 / 8 * h) _). clearbody k1 k2 k3 k4 k5 k6.
  f_equal; [f_equal|]; extensionality j; ring.
Qed.

(** ** Exactness *)
Lemma rk4_poly : forall f t h y j a0 a1 a2 a3, (forall s z, f s z j = a0 + a1 * s + a2 * s ^ 2 + a3 * s ^ 3) ->
  let P := fun s => a0 * s + a1 * s ^ 2 / 2 + a2 * s ^ 3 / 3 + a3 * s ^ 4 / 4 in
  runge_kutta classical (tb classical) f t h y j = y j + P (t + h) - P t.
Proof. intros f t h y j a0 a1 a2 a3 F P. unfold runge_kutta. cbn [ta tb tc classical stages app comb]. rewrite !F. unfold P. field. Qed.
Lemma ck5_poly : forall f t h y j a0 a1 a2 a3 a4, (forall s z, f s z j = a0 + a1 * s + a2 * s ^ 2 + a3 * s ^ 3 + a4 * s ^ 4) ->
  let P := fun s => a0 * s + a1 * s ^ 2 / 2 + a2 * s ^ 3 / 3 + a3 * s ^ 4 / 4 + a4 * s ^ 5 / 5 in
  runge_kutta cash_karp (tb cash_karp) f t h y j = y j + P (t + h) - P t.
Proof. intros f t h y j a0 a1 a2 a3 a4 F P. unfold runge_kutta. cbn [ta tb tc cash_karp stages app comb]. rewrite !F. unfold P. field. Qed.
Lemma ck4_poly : forall f t h y j a0 a1 a2 a3, (forall s z, f s z j = a0 + a1 * s + a2 * s ^ 2 + a3 * s ^ 3) ->
  let P := fun s => a0 * s + a1 * s ^ 2 / 2 + a2 * s ^ 3 / 3 + a3 * s ^ 4 / 4 in
  runge_kutta cash_karp cash_karp4 f t h y j = y j + P (t + h) - P t.
Proof. intros f t h y j a0 a1 a2 a3 F P. unfold runge_kutta. cbn [ta tb tc cash_karp cash_karp4 stages app comb]. rewrite !F. unfold P. field. Qed.
(** linear systems: the exponential series to the order of the method *)
Section linear.
Variables (L : (nat -> R) -> nat -> R).
Hypothesis lin : forall a u v, L (fun j => u j + a * v j) = fun j => L u j + a * L v j.
Variable y : nat -> R.
Let u1 := L y. Let u2 := L u1. Let u3 := L u2. Let u4 := L u3. Let u5 := L u4. Let u6 := L u5.
Lemma L_comb : forall a1 a2 a3 a4 a5,
  L (fun j => y j + a1 * u1 j + a2 * u2 j + a3 * u3 j + a4 * u4 j + a5 * u5 j) = fun j => u1 j + a1 * u2 j + a2 * u3 j + a3 * u4 j + a4 * u5 j + a5 * u6 j.
Proof.
  intros. rewrite (lin a5 (fun j => y j + a1 * u1 j + a2 * u2 j + a3 * u3 j + a4 * u4 j) u5), (lin a4 (fun j => y j + a1 * u1 j + a2 * u2 j + a3 * u3 j) u4),
    (lin a3 (fun j => y j + a1 * u1 j + a2 * u2 j) u3), (lin a2 (fun j => y j + a1 * u1 j) u2), (lin a1 y u1). reflexivity.
Qed.
Lemma st_step : forall a rows c cs f t h ks k, f (t + c * h) (fun j => y j + h * comb a ks j) = k ->
  stages (a :: rows) (c :: cs) f t h y ks = stages rows cs f t h y (ks ++ [k]).
Proof. intros. cbn. now subst. Qed.
Lemma L_comb' : forall w k a1 a2 a3 a4 a5, (forall j, w j = y j + a1 * u1 j + a2 * u2 j + a3 * u3 j + a4 * u4 j + a5 * u5 j) ->
  (forall j, k j = u1 j + a1 * u2 j + a2 * u3 j + a3 * u4 j + a4 * u5 j + a5 * u6 j) -> L w = k.
Proof.
  intros w k a1 a2 a3 a4 a5 W K. transitivity (L (fun j => y j + a1 * u1 j + a2 * u2 j + a3 * u3 j + a4 * u4 j + a5 * u5 j)).
  - f_equal. extensionality j. apply W.
  - rewrite L_comb. extensionality j. symmetry. apply K.
Qed.
Ltac st k a1 a2 a3 a4 a5 := etransitivity; [apply (st_step _ _ _ _ _ _ _ _ k); apply (L_comb' _ _ a1 a2 a3 a4 a5); intros i; cbn [comb app]; field|cbn [app]].
Lemma rk4_linear : forall t h j, runge_kutta classical (tb classical) (fun _ => L) t h y j =
  y j + h * u1 j + h ^ 2 / 2 * u2 j + h ^ 3 / 6 * u3 j + h ^ 4 / 24 * u4 j.
Proof.
  intros t h j.
  assert (S : stages (ta classical) (tc classical) (fun _ => L) t h y [] =
    [u1; (fun j => u1 j + h / 2 * u2 j); (fun j => u1 j + h / 2 * u2 j + h ^ 2 / 4 * u3 j); (fun j => u1 j + h * u2 j + h ^ 2 / 2 * u3 j + h ^ 3 / 4 * u4 j)]).
  { cbn [ta tc classical].
    st u1 0 0 0 0 0.
    st (fun j => u1 j + h / 2 * u2 j) (h / 2) 0 0 0 0.
    st (fun j => u1 j + h / 2 * u2 j + h ^ 2 / 4 * u3 j) (h / 2) (h ^ 2 / 4) 0 0 0.
    st (fun j => u1 j + h * u2 j + h ^ 2 / 2 * u3 j + h ^ 3 / 4 * u4 j) h (h ^ 2 / 2) (h ^ 3 / 4) 0 0.
    reflexivity. }
  unfold runge_kutta. rewrite S. cbn [tb classical comb]. field.
Qed.
(** the stages of Cash-Karp for a linear system *)
Lemma ck_linear_stages : forall t h,
  stages (ta cash_karp) (tc cash_karp) (fun _ => L) t h y [] =
  [u1; (fun j => u1 j + h / 5 * u2 j); (fun j => u1 j + 3 / 10 * h * u2 j + 9 / 200 * h ^ 2 * u3 j);
   (fun j => u1 j + 3 / 5 * h * u2 j + 9 / 50 * h ^ 2 * u3 j + 27 / 500 * h ^ 3 * u4 j);
   (fun j => u1 j + h * u2 j + 1 / 2 * h ^ 2 * u3 j + 7 / 60 * h ^ 3 * u4 j + 7 / 100 * h ^ 4 * u5 j);
   (fun j => u1 j + 7 / 8 * h * u2 j + 49 / 128 * h ^ 2 * u3 j + 161 / 1536 * h ^ 3 * u4 j
             + (44275 / 110592 * (27 / 500) + 253 / 4096 * (7 / 60)) * h ^ 4 * u5 j + 253 / 4096 * (7 / 100) * h ^ 5 * u6 j)].
Proof.
  intros t h. cbn [ta tc cash_karp].
  st u1 0 0 0 0 0.
  st (fun j => u1 j + h / 5 * u2 j) (h / 5) 0 0 0 0.
  st (fun j => u1 j + 3 / 10 * h * u2 j + 9 / 200 * h ^ 2 * u3 j) (3 / 10 * h) (9 / 200 * h ^ 2) 0 0 0.
  st (fun j => u1 j + 3 / 5 * h * u2 j + 9 / 50 * h ^ 2 * u3 j + 27 / 500 * h ^ 3 * u4 j) (3 / 5 * h) (9 / 50 * h ^ 2) (27 / 500 * h ^ 3) 0 0.
  st (fun j => u1 j + h * u2 j + 1 / 2 * h ^ 2 * u3 j + 7 / 60 * h ^ 3 * u4 j + 7 / 100 * h ^ 4 * u5 j) h (1 / 2 * h ^ 2) (7 / 60 * h ^ 3) (7 / 100 * h ^ 4) 0.
  st (fun j => u1 j + 7 / 8 * h * u2 j + 49 / 128 * h ^ 2 * u3 j + 161 / 1536 * h ^ 3 * u4 j
             + (44275 / 110592 * (27 / 500) + 253 / 4096 * (7 / 60)) * h ^ 4 * u5 j + 253 / 4096 * (7 / 100) * h ^ 5 * u6 j)
     (7 / 8 * h) (49 / 128 * h ^ 2) (161 / 1536 * h ^ 3) ((44275 / 110592 * (27 / 500) + 253 / 4096 * (7 / 60)) * h ^ 4) (253 / 4096 * (7 / 100) * h ^ 5).
  reflexivity.
Qed.
Lemma ck5_linear : forall t h j, runge_kutta cash_karp (tb cash_karp) (fun _ => L) t h y j =
  y j + h * u1 j + h ^ 2 / 2 * u2 j + h ^ 3 / 6 * u3 j + h ^ 4 / 24 * u4 j + h ^ 5 / 120 * u5 j + h ^ 6 / 800 * u6 j.
Proof.
  intros t h j. pose proof (ck_linear_stages t h) as S.
  unfold runge_kutta. rewrite S. cbn [tb cash_karp comb]. field.
Qed.
Lemma ck4_linear : forall t h, exists e f, forall j, runge_kutta cash_karp cash_karp4 (fun _ => L) t h y j =
  y j + h * u1 j + h ^ 2 / 2 * u2 j + h ^ 3 / 6 * u3 j + h ^ 4 / 24 * u4 j + e * h ^ 5 * u5 j + f * h ^ 6 * u6 j.
Proof.
  intros t h. pose proof (ck_linear_stages t h) as S.
  unfold runge_kutta. rewrite S. cbn [cash_karp4 comb].
  exists (277 / 14336 * (7 / 100) + 1 / 4 * (44275 / 110592 * (27 / 500) + 253 / 4096 * (7 / 60))), (1 / 4 * (253 / 4096 * (7 / 100))). intros j. field.
Qed.
End linear.
