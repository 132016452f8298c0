From Coq Require Import Reals ZArith List Bool Lia Lra Psatz.
From Verif Require Import MathModel MathProofs Vec DistModel.
Import ListNotations.
Local Open Scope R_scope.

(** ** Specification *)
(** mixed radix position of a bin tuple *)
Definition prod (n : list Z) : Z := fold_right Z.mul 1%Z n.
Fixpoint flat (n d : list Z) : Z :=
  match n, d with _ :: n', i :: d' => (i * prod n' + flat n' d')%Z | _, _ => 0%Z end.
Definition inrange (n d : list Z) : Prop := Forall2 (fun n i => (0 <= i < n)%Z) n d.
Definition naxes (t : dtype) : nat := match t with D5 | DR5 => 7 | D6 | DR6 => 8 | DCOM => 3 end.
Definition wf (t : dtype) (ax : list axis) : Prop :=
  length ax = naxes t /\ Forall (fun a => amin a < amax a /\ (0 < an a)%Z) ax.

Definition width (a : axis) : R := (amax a - amin a) / IZR (an a).
Definition leR (x y : R) : bool := if Rle_dec x y then true else false.
Definition ltR (x y : R) : bool := if Rlt_dec x y then true else false.
(** the value lies in the half-open box of the grid / of one cell *)
Definition inbox (ax : list axis) (x : list R) : bool :=
  forallb (fun p => leR (amin (fst p)) (snd p) && ltR (snd p) (amax (fst p)))%bool (combine ax x).
Definition incell (ax : list axis) (d : list Z) (x : list R) : bool :=
  forallb (fun p => leR (amin (fst (fst p)) + IZR (snd (fst p)) * width (fst (fst p))) (snd p) &&
                    ltR (snd p) (amin (fst (fst p)) + IZR (snd (fst p) + 1) * width (fst (fst p))))%bool
          (combine (combine ax d) x).
Definition sumbins (h : hist) (T : Z) : R := fold_right Rplus 0 (map (fun k => h (Z.of_nat k)) (seq 0 (Z.to_nat T))).
Definition sumif {A} (f : A -> bool) (w : A -> R) (l : list A) : R :=
  fold_right (fun a s => (if f a then w a else 0) + s) 0 l.

(** ** indices *)
Lemma prod_pos : forall n, Forall (fun k => (0 < k)%Z) n -> (0 < prod n)%Z.
Proof. induction 1; cbn; [lia | fold (prod l); nia]. Qed.

Lemma flat_range : forall n d, inrange n d -> (0 <= flat n d < prod n)%Z.
Proof. induction 1; cbn -[Z.mul]; [lia|]. fold (prod l). nia. Qed.

Lemma flat_inj : forall n d d', inrange n d -> inrange n d' -> flat n d = flat n d' -> d = d'.
Proof.
  intros n d d' H. revert d'. induction H as [|n i l d Hi H IH]; intros d' H' E; inversion H'; subst; auto.
  cbn in E. pose proof (flat_range _ _ H) as A. pose proof (flat_range _ _ H4) as B.
  assert (i = y) by nia. subst. f_equal. apply IH; auto. lia.
Qed.

Lemma flat_onto : forall n k, Forall (fun k => (0 < k)%Z) n -> (0 <= k < prod n)%Z -> exists d, inrange n d /\ flat n d = k.
Proof.
  intros n k H. revert k. induction H as [|m n Hm H IH]; intros k Hk.
  - exists []. cbn in *. split; [constructor | lia].
  - cbn in Hk. fold (prod n) in Hk. pose proof (prod_pos n H) as P.
    destruct (IH (k mod prod n)%Z) as (d & D & E); [apply Z.mod_pos_bound; auto|].
    exists ((k / prod n)%Z :: d). split.
    + constructor; auto. split; [apply Z.div_pos; lia | apply Z.div_lt_upper_bound; lia].
    + cbn [flat]. rewrite E. pose proof (Z.div_mod k (prod n) ltac:(lia)). lia.
Qed.

Ltac explode l H := repeat (destruct l as [|? l]; cbn [length] in H; [try discriminate H | try discriminate H; injection H as H]).
Lemma total_prod : forall t ax, length ax = naxes t -> total t ax = prod (map an ax).
Proof.
  intros t ax H. destruct t; cbn [naxes] in H.
  all: explode ax H; cbn; ring.
Qed.
Lemma index_flat : forall t ax d, length ax = naxes t -> length d = naxes t -> index t ax d = flat (map an ax) d.
Proof.
  intros t ax d H K. destruct t; cbn [naxes] in *.
  all: explode ax H.
  all: explode d K.
  all: unfold index, flat, prod; cbn [map fold_right]; ring.
Qed.

Lemma inrange_len : forall n d, inrange n d -> length d = length n.
Proof. induction 1; cbn; auto. Qed.

Lemma wf_pos : forall t ax, wf t ax -> Forall (fun k => (0 < k)%Z) (map an ax).
Proof. intros t ax [_ H]. induction H; cbn; constructor; tauto. Qed.

Lemma index_inj : forall t ax d d', length ax = naxes t -> inrange (map an ax) d -> inrange (map an ax) d' ->
  index t ax d = index t ax d' -> d = d'.
Proof.
  intros t ax d d' L H H' E. rewrite !index_flat in E; auto.
  - eapply flat_inj; eauto.
  - apply inrange_len in H'. rewrite map_length in H'. congruence.
  - apply inrange_len in H. rewrite map_length in H. congruence.
Qed.
Lemma index_range : forall t ax d, length ax = naxes t -> inrange (map an ax) d -> (0 <= index t ax d < total t ax)%Z.
Proof.
  intros t ax d L H. pose proof (inrange_len _ _ H) as E. rewrite map_length in E.
  rewrite index_flat, total_prod by congruence. now apply flat_range.
Qed.
Lemma index_onto : forall t ax k, wf t ax -> (0 <= k < total t ax)%Z -> exists d, inrange (map an ax) d /\ index t ax d = k.
Proof.
  intros t ax k W H. pose proof (wf_pos _ _ W) as P. destruct W as [L _]. rewrite total_prod in H by auto.
  destruct (flat_onto _ k P H) as (d & D & E). exists d. split; auto. rewrite index_flat; auto.
  apply inrange_len in D. rewrite map_length in D. congruence.
Qed.

(** ** bins *)
Lemma bin_spec : forall a v i, amin a < amax a -> (0 < an a)%Z ->
  (bin a v = i <-> amin a + IZR i * width a <= v < amin a + IZR (i + 1) * width a).
Proof.
  intros a v i H N. unfold bin. fold (width a).
  assert (NP : 0 < IZR (an a)) by (apply IZR_lt; auto).
  assert (W : 0 < width a) by (unfold width; apply Rdiv_lt_0_compat; lra).
  set (q := (v - amin a) / width a). assert (E : v = amin a + q * width a) by (unfold q; field; lra).
  pose proof (floor_spec q) as [A B]. unfold floorR in *. rewrite plus_IZR. split.
  - intros <-. rewrite E. split; nra.
  - intros [L U]. rewrite E in L, U.
    assert (IZR i <= q) by nra. assert (q < IZR i + 1) by nra.
    apply eq_IZR. apply (floor_unique q i). lra.
Qed.
Lemma width_tot : forall a, (0 < an a)%Z -> IZR (an a) * width a = amax a - amin a.
Proof. intros a H. unfold width. field. apply not_0_IZR. lia. Qed.
Lemma bin_box : forall a v, amin a < amax a -> (0 < an a)%Z ->
  ((0 <= bin a v <= an a - 1)%Z <-> amin a <= v < amax a).
Proof.
  intros a v H N. pose proof (proj1 (bin_spec a v _ H N) eq_refl) as [L U].
  assert (NP : 0 < IZR (an a)) by (apply IZR_lt; auto).
  assert (W : 0 < width a) by (unfold width; apply Rdiv_lt_0_compat; lra).
  pose proof (width_tot a N) as T. set (i := bin a v) in *. split.
  - intros [A B]. apply IZR_le in A. assert (C : IZR (i + 1) <= IZR (an a)) by (apply IZR_le; lia). split; nra.
  - intros [A B]. assert (0 < IZR (i + 1)) by (rewrite plus_IZR in *; nra). assert (IZR i < IZR (an a)) by nra.
    apply lt_IZR in H0, H1. lia.
Qed.

Lemma leR_spec : forall x y, leR x y = true <-> x <= y.
Proof. intros. unfold leR. destruct (Rle_dec x y); split; intros; auto; try discriminate; contradiction. Qed.
Lemma ltR_spec : forall x y, ltR x y = true <-> x < y.
Proof. intros. unfold ltR. destruct (Rlt_dec x y); split; intros; auto; try discriminate; contradiction. Qed.

Lemma ingrid_box : forall ax x, Forall (fun a => amin a < amax a /\ (0 < an a)%Z) ax -> ingrid ax x = inbox ax x.
Proof.
  intros ax x H. revert x. induction H as [|a ax [Ha Na] H IH]; intros [|v x]; auto.
  unfold ingrid, inbox in *. cbn [combine forallb fst snd]. rewrite <- IH. f_equal.
  apply eq_true_iff_eq. rewrite !andb_true_iff, !Z.leb_le, leR_spec, ltR_spec. apply bin_box; auto.
Qed.
Lemma ingrid_range : forall ax x, length x = length ax -> ingrid ax x = true -> inrange (map an ax) (bins ax x).
Proof.
  induction ax as [|a ax IH]; intros [|v x] L H; try discriminate; [constructor|].
  unfold ingrid, bins in *. cbn in *. apply andb_true_iff in H. destruct H as [H1 H2].
  apply andb_true_iff in H1. rewrite !Z.leb_le in H1. constructor; [lia|]. apply IH; auto.
Qed.
Lemma incell_bins : forall ax d x, Forall (fun a => amin a < amax a /\ (0 < an a)%Z) ax -> length x = length ax ->
  inrange (map an ax) d -> (incell ax d x = true <-> ingrid ax x = true /\ bins ax x = d).
Proof.
  intros ax d x H. revert d x. induction H as [|a ax [Ha Na] H IH]; intros d x L R; inversion R; subst.
  - destruct x; [|discriminate]. cbn. tauto.
  - destruct x as [|v x]; [discriminate|]. injection L as L. unfold incell, ingrid, bins in *. cbn [combine forallb map fst snd].
    rewrite !andb_true_iff, (IH _ _ L H4), leR_spec, ltR_spec, !Z.leb_le, <- (bin_spec a v y Ha Na).
    split.
    + intros [-> [G <-]]. repeat split; auto; lia.
    + intros [[_ G] E]. injection E as -> ->. auto.
Qed.

(** ** depositing *)
Definition deposits := list (Z * R).
Definition deposit (h : hist) (l : deposits) : hist := fold_left (fun h p => addto h (fst p) (snd p)) l h.
Lemma deposit_at : forall l h j, deposit h l j = h j + sumif (fun p => Z.eqb (fst p) j) snd l.
Proof.
  induction l as [|[i w] l IH]; intros h j; [cbn; ring|].
  unfold deposit in *. cbn [fold_left fst snd]. rewrite IH. unfold addto, sumif. cbn [fold_right fst snd].
  rewrite (Z.eqb_sym i j). destruct (Z.eqb j i); ring.
Qed.

Lemma sumbins_add : forall T h i w, (0 <= i < T)%Z -> sumbins (addto h i w) T = sumbins h T + w.
Proof.
  intros T h i w H. unfold sumbins.
  assert (G : forall n s, (fold_right Rplus 0 (map (fun k => addto h i w (Z.of_nat k)) (seq s n)) =
     fold_right Rplus 0 (map (fun k => h (Z.of_nat k)) (seq s n)) + (if ((Z.of_nat s <=? i) && (i <? Z.of_nat (s + n)))%Z%bool then w else 0))).
  { induction n; intros s; cbn [seq map fold_right].
    - destruct (Z.leb_spec (Z.of_nat s) i), (Z.ltb_spec i (Z.of_nat (s + 0))); cbn [andb]; try lra; lia.
    - rewrite IHn. unfold addto at 1. destruct (Z.eqb_spec (Z.of_nat s) i).
      + destruct (Z.leb_spec (Z.of_nat (S s)) i), (Z.leb_spec (Z.of_nat s) i), (Z.ltb_spec i (Z.of_nat (S s + n))), (Z.ltb_spec i (Z.of_nat (s + S n))); cbn [andb]; try lra; lia.
      + destruct (Z.leb_spec (Z.of_nat (S s)) i), (Z.leb_spec (Z.of_nat s) i), (Z.ltb_spec i (Z.of_nat (S s + n))), (Z.ltb_spec i (Z.of_nat (s + S n))); cbn [andb]; try lra; lia. }
  rewrite G. destruct (Z.leb_spec (Z.of_nat 0) i), (Z.ltb_spec i (Z.of_nat (0 + Z.to_nat T))); cbn [andb]; try lra; lia.
Qed.
Lemma sumbins_deposit : forall T l h, (forall p, In p l -> (0 <= fst p < T)%Z) ->
  sumbins (deposit h l) T = sumbins h T + sumif (fun _ => true) snd l.
Proof.
  intros T l. induction l as [|p l IH]; intros h H; [cbn; ring|].
  unfold deposit, sumif in *. cbn [fold_left fold_right]. rewrite IH by (intros q Hq; apply H; now right). rewrite sumbins_add by (apply H; now left). ring.
Qed.

Section Dist.
Variables (E0 c0 : R) (psi : R -> R -> R -> R -> R) (mom : gc -> R * R * R).
Let cg := coords_gc E0 c0 psi mom.
Let cf := coords_fo E0 c0 psi.

Lemma cg_len : forall t m, length (cg t m) = naxes t.
Proof. intros t m. unfold cg, coords_gc. destruct (mom m) as [[a b] c], t; reflexivity. Qed.
Lemma cf_len : forall t m, length (cf t m) = naxes t.
Proof. intros t m. destruct t; reflexivity. Qed.

Definition deps_gc (t : dtype) (ax : list axis) (l : list (gc * gc)) : deposits :=
  flat_map (fun p => if (g_run (fst p) && ingrid ax (cg t (fst p)))%bool
                     then [(index t ax (bins ax (cg t (fst p))), g_weight (fst p) * (g_time (fst p) - g_time (snd p)))] else []) l.
Lemma update_gc_deps : forall t ax l h, update_gc E0 c0 psi mom t ax h l = deposit h (deps_gc t ax l).
Proof.
  intros t ax l. induction l as [|p l IH]; intros h; [reflexivity|].
  unfold update_gc in *. cbn [fold_left]. rewrite IH. unfold deps_gc at 2. cbn [flat_map]. unfold cg.
  destruct (_ && _)%bool; reflexivity.
Qed.
Definition run_gc (t : dtype) (ax : list axis) (h : hist) (calls : list (list (gc * gc))) : hist :=
  fold_left (update_gc E0 c0 psi mom t ax) calls h.
Lemma run_gc_concat : forall t ax calls h, run_gc t ax h calls = update_gc E0 c0 psi mom t ax h (concat calls).
Proof.
  intros t ax calls. induction calls as [|l calls IH]; intros h; [reflexivity|].
  cbn [run_gc fold_left concat]. unfold run_gc in IH. rewrite IH. unfold update_gc. now rewrite fold_left_app.
Qed.

Definition wdt (p : gc * gc) : R := g_weight (fst p) * (g_time (fst p) - g_time (snd p)).
Lemma gc_bin : forall t ax h calls d, wf t ax -> inrange (map an ax) d ->
  run_gc t ax h calls (index t ax d) =
  h (index t ax d) + sumif (fun p => g_run (fst p) && incell ax d (cg t (fst p)))%bool wdt (concat calls).
Proof.
  intros t ax h calls d [L W] D. rewrite run_gc_concat, update_gc_deps, deposit_at. f_equal.
  induction (concat calls) as [|p l IH]; [reflexivity|].
  unfold deps_gc in *. cbn [flat_map sumif fold_right]. 
  assert (LE : length (cg t (fst p)) = length ax) by (rewrite cg_len; auto).
  pose proof (incell_bins ax d (cg t (fst p)) W LE D) as IC.
  destruct (g_run (fst p)); cbn [andb app]; [|rewrite Rplus_0_l; exact IH].
  destruct (ingrid ax (cg t (fst p))) eqn:IG; cbn [app sumif fold_right fst snd].
  - destruct (incell ax d (cg t (fst p))) eqn:C.
    + destruct (proj1 IC eq_refl) as [_ ->]. rewrite Z.eqb_refl. f_equal. exact IH.
    + destruct (Z.eqb_spec (index t ax (bins ax (cg t (fst p)))) (index t ax d)) as [E|E].
      * exfalso. apply index_inj in E; auto; [|apply ingrid_range; auto]. rewrite E in IC.
        destruct IC as [_ X]. specialize (X (conj eq_refl eq_refl)). discriminate.
      * f_equal. exact IH.
  - destruct (incell ax d (cg t (fst p))) eqn:C; [destruct (proj1 IC eq_refl); discriminate|]. rewrite Rplus_0_l. exact IH.
Qed.

Lemma gc_total : forall t ax h calls, wf t ax ->
  sumbins (run_gc t ax h calls) (total t ax) =
  sumbins h (total t ax) + sumif (fun p => g_run (fst p) && inbox ax (cg t (fst p)))%bool wdt (concat calls).
Proof.
  intros t ax h calls [L W]. rewrite run_gc_concat, update_gc_deps, sumbins_deposit.
  - f_equal. induction (concat calls) as [|p l IH]; [reflexivity|].
    unfold deps_gc in *. cbn [flat_map sumif fold_right]. rewrite <- (ingrid_box ax _ W).
    destruct (g_run (fst p)); cbn [andb app]; [|rewrite Rplus_0_l; exact IH].
    destruct (ingrid ax (cg t (fst p))); cbn [app sumif fold_right snd]; [f_equal; exact IH | rewrite Rplus_0_l; exact IH].
  - intros p Hp. unfold deps_gc in Hp. apply in_flat_map in Hp. destruct Hp as (q & _ & Hq).
    destruct (g_run (fst q)); cbn [andb] in Hq; [|destruct Hq].
    destruct (ingrid ax (cg t (fst q))) eqn:IG; [|destruct Hq]. destruct Hq as [<-|[]]. cbn [fst].
    apply index_range; auto. apply ingrid_range; auto. rewrite cg_len. auto.
Qed.

(** ** particles *)
Definition wdtf (p : (fo * fo) * (Z * R)) : R := f_weight (fst (fst p)) * (f_time (fst (fst p)) - f_time (snd (fst p))).
Definition run_fo (t : dtype) (ax : list axis) (h : hist) (calls : list (list ((fo * fo) * (Z * R)))) : hist :=
  fold_left (update_fo E0 c0 psi t ax) calls h.
Definition deps_fo (t : dtype) (ax : list axis) (l : list ((fo * fo) * (Z * R))) : deposits :=
  flat_map (fun q => let s := slot_fo E0 c0 psi t ax (fst q) (snd q) in
    if (f_run (fst (fst q)) && (0 <=? fst s)%Z && (fst s <? total t ax)%Z)%bool then [s] else []) l.
Lemma update_fo_deps : forall t ax l h, update_fo E0 c0 psi t ax h l = deposit h (deps_fo t ax l).
Proof.
  intros t ax l. induction l as [|[p j] l IH]; intros h; [reflexivity|].
  unfold update_fo in *. cbn [fold_left]. rewrite IH. unfold deps_fo at 2. cbn [flat_map fst snd].
  destruct (slot_fo E0 c0 psi t ax p j) as [i w]. cbn [fst snd].
  destruct (_ && _)%bool; reflexivity.
Qed.
Lemma run_fo_concat : forall t ax calls h, run_fo t ax h calls = update_fo E0 c0 psi t ax h (concat calls).
Proof.
  intros t ax calls. induction calls as [|l calls IH]; intros h; [reflexivity|].
  cbn [run_fo fold_left concat]. unfold run_fo in IH. rewrite IH. unfold update_fo. now rewrite fold_left_app.
Qed.
(** every running particle is inside the grid *)
Definition all_inside (t : dtype) (ax : list axis) (l : list ((fo * fo) * (Z * R))) : Prop :=
  forall q, In q l -> f_run (fst (fst q)) = true -> inbox ax (cf t (fst (fst q))) = true.

Lemma slot_in : forall t ax q, wf t ax -> f_run (fst (fst q)) = true -> inbox ax (cf t (fst (fst q))) = true ->
  slot_fo E0 c0 psi t ax (fst q) (snd q) = (index t ax (bins ax (cf t (fst (fst q)))), wdtf q) /\
  (0 <= index t ax (bins ax (cf t (fst (fst q)))) < total t ax)%Z.
Proof.
  intros t ax q [L W] R I. rewrite <- ingrid_box in I by auto. split.
  - unfold slot_fo. fold cf. rewrite R, I. reflexivity.
  - apply index_range; auto. apply ingrid_range; auto. rewrite cf_len. auto.
Qed.
Lemma fo_bin : forall t ax h calls d, wf t ax -> inrange (map an ax) d -> all_inside t ax (concat calls) ->
  run_fo t ax h calls (index t ax d) =
  h (index t ax d) + sumif (fun q => f_run (fst (fst q)) && incell ax d (cf t (fst (fst q))))%bool wdtf (concat calls).
Proof.
  intros t ax h calls d WF D AI. pose proof WF as [L W]. rewrite run_fo_concat, update_fo_deps, deposit_at. f_equal.
  induction (concat calls) as [|p l IH]; [reflexivity|].
  specialize (IH (fun q Hq => AI q (or_intror Hq))). specialize (AI p (or_introl eq_refl)).
  unfold deps_fo in *. cbn [flat_map sumif fold_right].
  assert (LE : length (cf t (fst (fst p))) = length ax) by (rewrite cf_len; auto).
  pose proof (incell_bins ax d (cf t (fst (fst p))) W LE D) as IC.
  destruct (f_run (fst (fst p))) eqn:R; cbn [andb app]; [|rewrite Rplus_0_l; exact IH].
  destruct (slot_in t ax p WF R (AI eq_refl)) as [-> [B1 B2]]. cbn [fst].
  destruct (Z.leb_spec 0 (index t ax (bins ax (cf t (fst (fst p)))))); [|lia].
  destruct (Z.ltb_spec (index t ax (bins ax (cf t (fst (fst p))))) (total t ax)); [|lia].
  cbn [andb app sumif fold_right fst snd].
  pose proof (AI eq_refl) as IG. rewrite <- ingrid_box in IG by auto.
  destruct (incell ax d (cf t (fst (fst p)))) eqn:C.
  - destruct (proj1 IC eq_refl) as [_ ->]. rewrite Z.eqb_refl. f_equal. exact IH.
  - destruct (Z.eqb_spec (index t ax (bins ax (cf t (fst (fst p))))) (index t ax d)) as [E|E].
    + exfalso. apply index_inj in E; auto; [|apply ingrid_range; auto]. rewrite E in IC.
      destruct IC as [_ X]. specialize (X (conj IG eq_refl)). discriminate.
    + f_equal. exact IH.
Qed.
Lemma fo_total : forall t ax h calls, wf t ax -> all_inside t ax (concat calls) ->
  sumbins (run_fo t ax h calls) (total t ax) =
  sumbins h (total t ax) + sumif (fun q => f_run (fst (fst q))) wdtf (concat calls).
Proof.
  intros t ax h calls WF AI. rewrite run_fo_concat, update_fo_deps, sumbins_deposit.
  - f_equal. induction (concat calls) as [|p l IH]; [reflexivity|].
    specialize (IH (fun q Hq => AI q (or_intror Hq))). specialize (AI p (or_introl eq_refl)).
    unfold deps_fo in *. cbn [flat_map sumif fold_right].
    destruct (f_run (fst (fst p))) eqn:R; cbn [andb app]; [|rewrite Rplus_0_l; exact IH].
    destruct (slot_in t ax p WF R (AI eq_refl)) as [-> [B1 B2]]. cbn [fst].
    destruct (Z.leb_spec 0 (index t ax (bins ax (cf t (fst (fst p)))))); [|lia].
    destruct (Z.ltb_spec (index t ax (bins ax (cf t (fst (fst p))))) (total t ax)); [|lia].
    cbn [andb app sumif fold_right snd]. f_equal. exact IH.
  - intros p Hp. unfold deps_fo in Hp. apply in_flat_map in Hp. destruct Hp as (q & _ & Hq). cbn beta zeta in Hq.
    destruct (f_run (fst (fst q))); cbn [andb] in Hq; [|destruct Hq].
    destruct (Z.leb_spec 0 (fst (slot_fo E0 c0 psi t ax (fst q) (snd q)))); cbn [andb] in Hq; [|destruct Hq].
    destruct (Z.ltb_spec (fst (slot_fo E0 c0 psi t ax (fst q) (snd q))) (total t ax)); [|destruct Hq].
    destruct Hq as [<-|[]]. lia.
Qed.
(** a running particle outside the grid deposits whatever the stack holds *)
Lemma fo_junk : forall t ax h p i w, wf t ax -> f_run (fst p) = true -> inbox ax (cf t (fst p)) = false ->
  (0 <= i < total t ax)%Z -> update_fo E0 c0 psi t ax h [(p, (i, w))] i = h i + w.
Proof.
  intros t ax h p i w [L W] R I H. unfold update_fo. cbn [fold_left]. unfold slot_fo. fold cf.
  rewrite R, (ingrid_box ax _ W), I. cbn [andb].
  destruct (Z.leb_spec 0 i), (Z.ltb_spec i (total t ax)); try lia. cbn [andb]. unfold addto. rewrite Z.eqb_refl. reflexivity.
Qed.
End Dist.

(** ** coordinates *)
Lemma wrap_spec : forall phi, 0 <= wrap phi < 2 * PI /\ exists n, wrap phi = phi - 2 * PI * IZR n.
Proof.
  intros phi. pose proof PI_RGT_0. pose proof (fmod_range phi (2 * PI) ltac:(lra)). unfold wrap.
  destruct (Rlt_dec _ _); [lra|]. split; auto. apply fmod_congr.
Qed.
Lemma pperp_spec : forall m, f_B m <> vzero ->
  0 <= pperp m /\ ppara m * ppara m + pperp m * pperp m = dot (f_p m) (f_p m) /\
  ppara m * norm (f_B m) = dot (f_p m) (f_B m).
Proof.
  intros m H. pose proof (norm_pos _ H) as NP. pose proof (norm_sq (f_B m)) as NS.
  assert (E : ppara m * norm (f_B m) = dot (f_p m) (f_B m)).
  { unfold ppara. change (sqrt (dot (f_B m) (f_B m))) with (norm (f_B m)). field. lra. }
  assert (C : ppara m * ppara m <= dot (f_p m) (f_p m)).
  { pose proof (lagrange (f_p m) (f_B m)) as LG. pose proof (dot_nonneg (cross (f_p m) (f_B m))) as P.
    assert (ppara m * ppara m * dot (f_B m) (f_B m) <= dot (f_p m) (f_p m) * dot (f_B m) (f_B m)).
    { rewrite <- NS. replace (ppara m * ppara m * (norm (f_B m) * norm (f_B m))) with ((ppara m * norm (f_B m)) * (ppara m * norm (f_B m))) by ring.
      rewrite E, NS. lra. }
    apply Rmult_le_reg_r with (dot (f_B m) (f_B m)); auto. rewrite <- NS. nra. }
  split; [apply sqrt_pos | split; auto]. unfold pperp. rewrite sqrt_sqrt by lra. ring.
Qed.
(** the magnetic moment and parallel momentum of the COM distribution are those
    of the 5D one *)
Lemma com_mu : forall E0 c0 psi m, f_B m <> vzero -> f_p m <> vzero -> f_mass m <> 0 ->
  nth 0 (coords_fo E0 c0 psi DCOM m) 0 = pperp m * pperp m / (2 * norm (f_B m) * f_mass m).
Proof.
  intros E0 c0 psi m HB HP HM. pose proof (pperp_spec m HB) as (_ & E & F). pose proof (norm_pos _ HB). pose proof (norm_pos _ HP).
  cbn [coords_fo nth]. unfold gc_mu. rewrite <- F. pose proof (norm_sq (f_p m)) as NP. rewrite <- NP in E.
  replace (pperp m * pperp m) with (norm (f_p m) * norm (f_p m) - ppara m * ppara m) by lra. field. repeat split; lra.
Qed.

(** ** diag_sum *)
Lemma arraysum_in : forall n a b i, (0 <= i < n)%Z -> arraysum n a b i = a i + b i.
Proof. intros n a b i H. unfold arraysum. destruct (Z.leb_spec 0 i), (Z.ltb_spec i n); try lia; reflexivity. Qed.
Lemma arraysum_out : forall n a b i, (n <= i)%Z -> arraysum n a b i = a i.
Proof. intros n a b i H. unfold arraysum. destruct (Z.leb_spec 0 i), (Z.ltb_spec i n); try lia; reflexivity. Qed.
Lemma sum1_eq : forall d2 d t, collect (sum1 d2 d t) = collect d /\ axes (sum1 d2 d t) = axes d /\
  forall s, histo (sum1 d2 d t) s = if (collect d t && dt_eqb s (target t))%bool
    then arraysum (stop_of t (axes d t)) (histo d s) (histo d2 s) else histo d s.
Proof.
  intros d2 d t. unfold sum1. destruct (collect d t) eqn:C; cbn [collect axes histo andb]; repeat split; intros s.
  unfold put. destruct (dt_eqb s (target t)) eqn:E; auto.
  assert (s = target t) by (destruct s, (target t); auto; discriminate). subst. reflexivity.
Qed.
Lemma sum_eq : forall d1 d2 s, let st t h := if (collect d1 t && dt_eqb s (target t))%bool
    then arraysum (stop_of t (axes d1 t)) h (histo d2 s) else h in
  histo (diag_sum d1 d2) s = st DCOM (st DR6 (st DR5 (st D6 (st D5 (histo d1 s))))).
Proof.
  intros d1 d2 s st. unfold diag_sum. cbn [fold_left].
  destruct (sum1_eq d2 d1 D5) as (C1 & A1 & H1). set (e1 := sum1 d2 d1 D5) in *.
  destruct (sum1_eq d2 e1 D6) as (C2 & A2 & H2). set (e2 := sum1 d2 e1 D6) in *.
  destruct (sum1_eq d2 e2 DR5) as (C3 & A3 & H3). set (e3 := sum1 d2 e2 DR5) in *.
  destruct (sum1_eq d2 e3 DR6) as (C4 & A4 & H4). set (e4 := sum1 d2 e3 DR6) in *.
  destruct (sum1_eq d2 e4 DCOM) as (C5 & A5 & H5).
  rewrite H5, C4, C3, C2, C1, A4, A3, A2, A1, H4, C3, C2, C1, A3, A2, A1, H3, C2, C1, A2, A1, H2, C1, A1, H1. reflexivity.
Qed.
Lemma sum_ok : forall d1 d2 t, (t = DR5 \/ t = DR6 \/ (t = D6 /\ collect d1 DCOM = false)) -> wf t (axes d1 t) ->
  forall i, (0 <= i < total t (axes d1 t))%Z ->
  histo (diag_sum d1 d2) t i = if collect d1 t then histo d1 t i + histo d2 t i else histo d1 t i.
Proof.
  intros d1 d2 t Ht [L W] i Hi.
  assert (S : stop_of t (axes d1 t) = total t (axes d1 t)).
  { clear Hi W. set (ax := axes d1 t) in *. clearbody ax. destruct t; try (exfalso; intuition discriminate); cbn [naxes] in L.
    all: explode ax L; cbn; ring. }
  rewrite sum_eq; cbv beta zeta. destruct Ht as [->|[->|[-> C]]]; cbn [target dt_eqb]; rewrite ?andb_false_r, ?andb_true_r.
  3: rewrite C; clear C.
  all: destruct (collect d1 _); [rewrite S; apply arraysum_in; auto | reflexivity].
Qed.
(** 5D: only the first 1/n_phi of the bins are summed *)
Lemma sum_5d : forall d1 d2 n_phi rest a, collect d1 D5 = true -> axes d1 D5 = a :: n_phi :: rest -> wf D5 (axes d1 D5) ->
  (stop_of D5 (axes d1 D5) * an n_phi = total D5 (axes d1 D5))%Z /\
  (forall i, (0 <= i < stop_of D5 (axes d1 D5))%Z -> histo (diag_sum d1 d2) D5 i = histo d1 D5 i + histo d2 D5 i) /\
  (forall i, (stop_of D5 (axes d1 D5) <= i)%Z -> histo (diag_sum d1 d2) D5 i = histo d1 D5 i).
Proof.
  intros d1 d2 n rest a C E [L W]. split.
  - rewrite E in *. cbn [naxes] in L. clear - L.
    explode rest L; cbn; ring.
  - split; intros i Hi; rewrite sum_eq; cbv beta zeta; cbn [target dt_eqb]; rewrite C, ?andb_false_r; cbn [andb].
    + apply arraysum_in; auto.
    + apply arraysum_out; auto.
Qed.
(** COM: the constants-of-motion histogram is never summed; the 6D one is, once more *)
Lemma sum_com : forall d1 d2, histo (diag_sum d1 d2) DCOM = histo d1 DCOM.
Proof.
  intros d1 d2. rewrite sum_eq; cbv beta zeta. cbn [target dt_eqb]. rewrite !andb_false_r. reflexivity.
Qed.
Lemma sum_6d_twice : forall d1 d2 i, collect d1 D6 = true -> collect d1 DCOM = true ->
  (0 <= i < stop_of D6 (axes d1 D6))%Z -> (i < stop_of DCOM (axes d1 DCOM))%Z ->
  histo (diag_sum d1 d2) D6 i = histo d1 D6 i + 2 * histo d2 D6 i.
Proof.
  intros d1 d2 i C6 CC H H'. rewrite sum_eq; cbv beta zeta. cbn [target dt_eqb]. rewrite C6, CC, !andb_false_r. cbn [andb].
  rewrite !arraysum_in by lia. ring.
Qed.

(** ** hist.c *)
Definition sizes (h : histogram) : list Z := map (fun i => size1 (an (h_ax h i))) (seq 0 16).
Definition digits (dg : nat -> Z) : list Z := map dg (seq 0 16).
Lemma hist_index_flat : forall req dg, hist_index (hist_init req) dg = flat (sizes (hist_init req)) (digits dg).
Proof.
  intros req dg. set (ax := fun i => fst (hist_axis req i)). set (s := fun i => size1 (an (ax i))).
  change (sizes (hist_init req)) with (map s (seq 0 16)).
  change (hist_index (hist_init req) dg) with (fold_left (fun a i => (a + dg i * strides_down ax (15 - i))%Z) (seq 0 15) 0%Z + dg 15%nat)%Z.
  unfold digits. cbn [seq map fold_left flat].
  assert (ST : forall k, (k < 15)%nat -> strides_down ax (S k) = (s (15 - k)%nat * strides_down ax k)%Z).
  { intros k Hk. cbn [strides_down]. fold (s (15 - k)%nat). destruct k; reflexivity. }
  assert (Z0 : strides_down ax 0 = 1%Z) by reflexivity.
  cbn [Nat.sub].
  rewrite (ST 14%nat), (ST 13%nat), (ST 12%nat), (ST 11%nat), (ST 10%nat), (ST 9%nat), (ST 8%nat), (ST 7%nat), (ST 6%nat), (ST 5%nat),
    (ST 4%nat), (ST 3%nat), (ST 2%nat), (ST 1%nat), (ST 0%nat), Z0 by lia.
  cbn [Nat.sub]. clearbody s. unfold prod. cbn [fold_right]. ring.
Qed.
Lemma hist_axis_once : forall req i a, NoDup (map fst req) -> In (i, a) req -> hist_axis req i = (a, an a).
Proof.
  intros req i a ND H. unfold hist_axis.
  assert (G : forall req s, ~ In i (map fst req) ->
    fold_left (fun s p => if Nat.eqb (fst p) i then (snd p, (snd s * an (snd p))%Z) else s) req s = s).
  { clear. induction req as [|p req IH]; intros s H; auto. cbn [fold_left map] in *. destruct (Nat.eqb_spec (fst p) i).
    - exfalso. apply H. now left.
    - apply IH. intros K. apply H. now right. }
  assert (F : forall s, snd s = 1%Z -> fold_left (fun s p => if Nat.eqb (fst p) i then (snd p, (snd s * an (snd p))%Z) else s) req s = (a, an a)).
  { induction req as [|p req IH]; intros s Hs; [destruct H|]. cbn [map] in ND. inversion ND; subst. cbn [fold_left].
    destruct H as [->|H].
    - cbn [fst snd]. rewrite Nat.eqb_refl, G by auto. cbn. rewrite Hs. f_equal. destruct (an a); reflexivity.
    - destruct (Nat.eqb_spec (fst p) i) as [E|E].
      + exfalso. apply H2. rewrite E. apply in_map_iff. exists (i, a). auto.
      + apply IH; auto. }
  apply F. reflexivity.
Qed.
Lemma hist_axis_none : forall req i, ~ In i (map fst req) -> hist_axis req i = (AX 0 1 0, 1%Z).
Proof.
  intros req i. unfold hist_axis. generalize (AX 0 1 0, 1%Z). induction req as [|p req IH]; intros s H; auto.
  cbn [fold_left map] in *. destruct (Nat.eqb_spec (fst p) i).
  - exfalso. apply H. now left.
  - apply IH. intros K. apply H. now right.
Qed.
Lemma hist_nbin : forall req, NoDup (map fst req) -> (forall p, In p req -> an (snd p) <> 0%Z) ->
  h_nbin (hist_init req) = prod (sizes (hist_init req)).
Proof.
  intros req ND NZ. unfold sizes, hist_init. cbn [h_nbin h_ax].
  assert (E : forall i, snd (hist_axis req i) = size1 (an (fst (hist_axis req i)))).
  { intros i. destruct (in_dec Nat.eq_dec i (map fst req)) as [I|I].
    - apply in_map_iff in I. destruct I as ([j a] & <- & I). cbn [fst]. rewrite (hist_axis_once req j a ND I). cbn.
      unfold size1. specialize (NZ _ I). cbn in NZ. destruct (Z.eqb_spec (an a) 0); congruence.
    - rewrite (hist_axis_none req i I). reflexivity. }
  unfold ALLDIM. set (f := fun i => size1 (an (fst (hist_axis req i)))).
  change (rev (seq 0 16)) with [15;14;13;12;11;10;9;8;7;6;5;4;3;2;1;0]%nat.
  cbn [fold_left seq map prod fold_right]. rewrite !E. 
  fold (f 0%nat) (f 1%nat) (f 2%nat) (f 3%nat) (f 4%nat) (f 5%nat) (f 6%nat) (f 7%nat) (f 8%nat) (f 9%nat) (f 10%nat) (f 11%nat) (f 12%nat) (f 13%nat) (f 14%nat) (f 15%nat).
  clearbody f. ring.
Qed.
(** in-range digits address distinct bins inside the array *)
Lemma hist_index_ok : forall req dg, NoDup (map fst req) -> (forall p, In p req -> an (snd p) <> 0%Z) ->
  inrange (sizes (hist_init req)) (digits dg) ->
  (0 <= hist_index (hist_init req) dg < h_nbin (hist_init req))%Z /\
  (forall dg', inrange (sizes (hist_init req)) (digits dg') -> hist_index (hist_init req) dg = hist_index (hist_init req) dg' -> digits dg = digits dg').
Proof.
  intros req dg ND NZ H. rewrite hist_nbin by auto. rewrite hist_index_flat. split; [now apply flat_range|].
  intros dg' H' E. rewrite hist_index_flat in E. eapply flat_inj; eauto.
Qed.
Lemma hbin_bin : forall a x, amin a < amax a -> (0 < an a)%Z -> hbin a x = bin a x.
Proof.
  intros a x H N. unfold hbin, bin. f_equal. field. split; [apply not_0_IZR; lia | lra].
Qed.
Definition supported (i : nat) : bool := match i with 10%nat | 11%nat | 12%nat | 13%nat | 15%nat => false | _ => Nat.ltb i 16 end.
Lemma hist_zero : forall a x, an a = 0%Z -> hbin a x = 0%Z.
Proof.
  intros a x H. unfold hbin. rewrite H. replace (0 * (x - amin a) / (amax a - amin a)) with 0 by (unfold Rdiv; ring).
  apply eq_IZR. apply (floor_unique 0 0). lra.
Qed.
Lemma hist_deposit : forall req b w x, NoDup (map fst req) ->
  (forall i a, In (i, a) req -> supported i = true /\ amin a < amax a /\ (0 < an a)%Z /\ amin a <= x i < amax a) ->
  exists j, (0 <= j < h_nbin (hist_init req))%Z /\
    (forall k, hist_update (hist_init req) b true w x k = if Z.eqb k j then b k + w else b k) /\
    exists dg, hist_index (hist_init req) dg = j /\ inrange (sizes (hist_init req)) (digits dg) /\
      forall i a, In (i, a) req -> amin a + IZR (dg i) * width a <= x i < amin a + IZR (dg i + 1) * width a.
Proof.
  intros req b w x ND H. set (h := hist_init req). set (dg := hist_digit h x).
  assert (NZ : forall p, In p req -> an (snd p) <> 0%Z).
  { intros [i a] I. destruct (H i a I) as (_ & _ & N & _). cbn. lia. }
  assert (AXI : forall i a, In (i, a) req -> h_ax h i = a).
  { intros i a I. unfold h, hist_init. cbn [h_ax]. now rewrite (hist_axis_once req i a ND I). }
  assert (DG : forall i a, In (i, a) req -> dg i = bin a (x i)).
  { intros i a I. destruct (H i a I) as (SP & L & N & B). unfold dg, hist_digit. rewrite (AXI i a I).
    rewrite <- hbin_bin by auto.
    do 16 (destruct i as [|i]; [try reflexivity; discriminate SP|]). discriminate SP. }
  assert (DN : forall i, ~ In i (map fst req) -> dg i = 0%Z /\ size1 (an (h_ax h i)) = 1%Z).
  { intros i I. assert (E : h_ax h i = AX 0 1 0) by (unfold h, hist_init; cbn [h_ax]; now rewrite (hist_axis_none req i I)).
    rewrite E. split; [|reflexivity]. unfold dg, hist_digit. rewrite E.
    do 16 (destruct i as [|i]; [try reflexivity; apply hist_zero; reflexivity|]). apply hist_zero; reflexivity. }
  assert (IR : inrange (sizes h) (digits dg)).
  { unfold sizes, digits. generalize (seq 0 16). induction l as [|i l IH]; [constructor|]. cbn [map]. constructor; auto.
    destruct (in_dec Nat.eq_dec i (map fst req)) as [I|I].
    - apply in_map_iff in I. destruct I as ([i' a] & <- & I). cbn [fst]. rewrite (DG i' a I), (AXI i' a I).
      destruct (H i' a I) as (_ & L & N & B). unfold size1. destruct (Z.eqb_spec (an a) 0); [lia|].
      pose proof (proj2 (bin_box a (x i') L N) B). lia.
    - destruct (DN i I) as [-> ->]. lia. }
  destruct (hist_index_ok req dg ND NZ IR) as [R _].
  exists (hist_index h dg). split; [exact R|]. split.
  - intros k. unfold hist_update. fold dg. fold h in R.
    destruct (Z.leb_spec 0 (hist_index h dg)), (Z.ltb_spec (hist_index h dg) (h_nbin h)); try lia. reflexivity.
  - exists dg. split; [reflexivity | split; [exact IR|]].
    intros i a I. destruct (H i a I) as (_ & L & N & B). rewrite (DG i a I). apply (bin_spec a (x i) _ L N). reflexivity.
Qed.
(** a value above the range of the innermost of two axes is counted in the next
    cell of the outer one *)
Definition spill_req : list (nat * axis) := [(0%nat, AX 0 1 2); (2%nat, AX 0 1 3)].
Lemma hist_spill : forall b w x, x 0%nat = 1/4 -> x 2%nat = 1 ->
  hist_update (hist_init spill_req) b true w x 3%Z = b 3%Z + w.
Proof.
  intros b w x H0 H2. unfold hist_update.
  assert (AX0 : forall i, (i <> 0 /\ i <> 2)%nat -> h_ax (hist_init spill_req) i = AX 0 1 0).
  { intros i [A B]. do 3 (destruct i as [|i]; [congruence || reflexivity|]). reflexivity. }
  set (h := hist_init spill_req) in *. set (dg := hist_digit h x).
  assert (DZ : forall i, (i <> 0 /\ i <> 2)%nat -> dg i = 0%Z).
  { intros i I. unfold dg, hist_digit. rewrite (AX0 i I). do 16 (destruct i as [|i]; [try reflexivity; apply hist_zero; reflexivity|]). apply hist_zero; reflexivity. }
  assert (D0 : dg 0%nat = 0%Z).
  { change (dg 0%nat) with (hbin (AX 0 1 2) (x 0%nat)). rewrite H0. unfold hbin. cbn [an amin amax]. apply eq_IZR.
    apply (floor_unique _ 0). lra. }
  assert (D2 : dg 2%nat = 3%Z).
  { change (dg 2%nat) with (hbin (AX 0 1 3) (x 2%nat)). rewrite H2. unfold hbin. cbn [an amin amax]. apply eq_IZR.
    apply (floor_unique _ 3). lra. }
  assert (E : hist_index h dg = 3%Z).
  { unfold hist_index. cbn [seq fold_left]. rewrite D0, D2, !DZ by lia. reflexivity. }
  rewrite E. replace (h_nbin h) with 6%Z by reflexivity. cbn [andb Z.leb Z.ltb Z.compare]. reflexivity.
Qed.
