(** Derivative rules in lambda form and a tactic [der] that reduces
    [derivable_pt_lim f x l] to an algebraic equation for [l]. *)
From Coq Require Import Reals Lra.
Local Open Scope R_scope.

Notation Dx := derivable_pt_lim.

Lemma d_eq : forall f x a b, Dx f x a -> a = b -> Dx f x b.
Proof. intros; subst; auto. Qed.
Lemma d_const : forall c x, Dx (fun _ => c) x 0.
Proof. intros. apply derivable_pt_lim_const. Qed.
Lemma d_id : forall x, Dx (fun t => t) x 1.
Proof. intros. apply derivable_pt_lim_id. Qed.
Lemma d_plus : forall f g x a b, Dx f x a -> Dx g x b -> Dx (fun t => f t + g t) x (a + b).
Proof. intros. now apply (derivable_pt_lim_plus f g). Qed.
Lemma d_minus : forall f g x a b, Dx f x a -> Dx g x b -> Dx (fun t => f t - g t) x (a - b).
Proof. intros. now apply (derivable_pt_lim_minus f g). Qed.
Lemma d_opp : forall f x a, Dx f x a -> Dx (fun t => - f t) x (- a).
Proof. intros. now apply (derivable_pt_lim_opp f). Qed.
Lemma d_mult : forall f g x a b, Dx f x a -> Dx g x b -> Dx (fun t => f t * g t) x (a * g x + f x * b).
Proof. intros. now apply (derivable_pt_lim_mult f g). Qed.
Lemma d_comp : forall f g x a b, Dx f x a -> Dx g (f x) b -> Dx (fun t => g (f t)) x (b * a).
Proof. intros. now apply (derivable_pt_lim_comp f g). Qed.
Lemma d_sin : forall f x a, Dx f x a -> Dx (fun t => sin (f t)) x (cos (f x) * a).
Proof. intros. apply (d_comp f sin); auto. apply derivable_pt_lim_sin. Qed.
Lemma d_cos : forall f x a, Dx f x a -> Dx (fun t => cos (f t)) x (- sin (f x) * a).
Proof. intros. apply (d_comp f cos); auto. apply derivable_pt_lim_cos. Qed.
Lemma d_exp : forall f x a, Dx f x a -> Dx (fun t => exp (f t)) x (exp (f x) * a).
Proof. intros. apply (d_comp f exp); auto. apply derivable_pt_lim_exp. Qed.
Lemma d_sqrt : forall f x a, Dx f x a -> 0 < f x -> Dx (fun t => sqrt (f t)) x (/ (2 * sqrt (f x)) * a).
Proof. intros. apply (d_comp f sqrt); auto. now apply derivable_pt_lim_sqrt. Qed.
Lemma d_ln : forall f x a, Dx f x a -> 0 < f x -> Dx (fun t => ln (f t)) x (/ f x * a).
Proof. intros. apply (d_comp f ln); auto. now apply derivable_pt_lim_ln. Qed.
Lemma d_div : forall f g x a b, Dx f x a -> Dx g x b -> g x <> 0 ->
  Dx (fun t => f t / g t) x ((a * g x - b * f x) / (g x * g x)).
Proof.
  intros f g x a b F G N. eapply d_eq.
  - apply (derivable_pt_lim_div f g x a b); auto.
  - unfold Rsqr. reflexivity.
Qed.
Lemma d_pow : forall f x a n, Dx f x a -> Dx (fun t => f t ^ n) x (INR n * f x ^ pred n * a).
Proof. intros. apply (d_comp f (fun t => t ^ n)); auto. apply derivable_pt_lim_pow. Qed.
Lemma d_atan : forall f x a, Dx f x a -> Dx (fun t => atan (f t)) x (/ (1 + f x * f x) * a).
Proof.
  intros. apply (d_comp f atan); auto. eapply d_eq; [apply derivable_pt_lim_atan|]. f_equal. ring.
Qed.
Lemma d_inv : forall f x a, Dx f x a -> f x <> 0 -> Dx (fun t => / f t) x (- a / (f x * f x)).
Proof.
  intros f x a F N. eapply d_eq.
  - eapply (derivable_pt_lim_ext (fun t => 1 / f t)); [|apply (d_div (fun _ => 1) f x 0 a); auto using d_const].
    intros z. unfold Rdiv. ring.
  - field. auto.
Qed.
Lemma d_ext : forall f g x a, (forall t, f t = g t) -> Dx f x a -> Dx g x a.
Proof. intros f g x a E H. eapply derivable_pt_lim_ext; eauto. Qed.

(** a derivative is unique *)
Lemma d_uniq : forall f x a b, Dx f x a -> Dx f x b -> a = b.
Proof. intros. eapply uniqueness_limite; eauto. Qed.

Ltac der1 := first
  [ apply d_const | apply d_id
  | apply d_plus | apply d_minus | apply d_opp | apply d_mult | apply d_div
  | apply d_pow | apply d_sin | apply d_cos | apply d_exp | apply d_sqrt | apply d_ln | apply d_atan | apply d_inv ].
Ltac der := eapply d_eq; [ repeat der1; cbv beta | cbv beta ].
