From Coq Require Import ZArith List Arith Lia.
From Verif Require Import ListModel.
Import ListNotations.

(** Histories of a list: [built vs own h p] - in heap [h] the list at [p] was
    created, the values [vs] were added in this order, its nodes were allocated
    at addresses [own], and between the list operations other code may have
    changed the heap anywhere outside [own]. *)
Inductive built : list Z -> list nat -> heap -> nat -> Prop :=
| built_create h a : h a = None -> built [] [a] (list_create h a) a
| built_add vs own h p fuel v a h' :
    built vs own h p -> h a = None -> list_add fuel h p v a = Ret h' ->
    built (vs ++ [v]) (own ++ [a]) h' p
| built_other vs own h h' p :
    built vs own h p -> (forall a, In a own -> h' a = h a) -> built vs own h' p.

(** Representation: consecutive nodes hold the values, the last node is a
    sentinel with arbitrary data. *)
Inductive chain (h : heap) : list nat -> list Z -> nat -> Prop :=
| chain_end p d : h p = Some (mk d None) -> chain h [p] [] p
| chain_cons p q v own vs :
    h p = Some (mk (Some v) (Some q)) -> chain h own vs q ->
    chain h (p :: own) (v :: vs) p.

Lemma chain_frame h h' own vs p :
  chain h own vs p -> (forall a, In a own -> h' a = h a) -> chain h' own vs p.
Proof.
  induction 1 as [p d E|p q v own vs E C IH]; intros F.
  - apply chain_end with d. rewrite F; [exact E|now left].
  - apply chain_cons with q.
    + rewrite F; [exact E|now left].
    + apply IH. intros a I. apply F. now right.
Qed.

Lemma chain_alloc h own vs p : chain h own vs p -> forall a, In a own -> h a <> None.
Proof.
  induction 1 as [p d E|p q v own vs E C IH]; intros a [<-|I].
  - congruence. - inversion I. - congruence. - now apply IH.
Qed.

Lemma chain_length h own vs p : chain h own vs p -> length own = S (length vs).
Proof. induction 1; simpl; lia. Qed.

Lemma chain_head h own vs p : chain h own vs p -> exists t, own = p :: t.
Proof. destruct 1; eauto. Qed.

Lemma chain_last h own vs p : chain h own vs p ->
  forall fuel, length vs < fuel ->
  exists l, last_node fuel h p = Ret l /\ last own 0 = l.
Proof.
  induction 1 as [p d E|p q v own vs E C IH]; intros fuel Hf.
  - destruct fuel; [simpl in Hf; lia|]. exists p. simpl. unfold load. rewrite E. auto.
  - destruct fuel; [simpl in Hf; lia|]. simpl in Hf. simpl. unfold load. rewrite E. simpl.
    destruct (IH fuel ltac:(lia)) as (l & L & E2). exists l. split; [exact L|].
    destruct own; [inversion C|]. exact E2.
Qed.

Lemma last_node_stable h own vs p : chain h own vs p ->
  forall fuel l, last_node fuel h p = Ret l -> l = last own 0.
Proof.
  induction 1 as [p d E|p q v own vs E C IH]; intros fuel l; destruct fuel; try discriminate;
    simpl; unfold load; rewrite E; simpl.
  - congruence.
  - intros L. apply IH in L. destruct own; [inversion C|exact L].
Qed.

Lemma upd_same h a c : upd h a c a = c.
Proof. unfold upd. now rewrite Nat.eqb_refl. Qed.
Lemma upd_other h a c b : b <> a -> upd h a c b = h b.
Proof. unfold upd. intros H. apply Nat.eqb_neq in H. now rewrite H. Qed.

Lemma last_in (l : list nat) d : l <> [] -> In (last l d) l.
Proof.
  induction l as [|x l IH]; [congruence|]. intros _. destruct l as [|y l]; [now left|].
  right. apply IH. discriminate.
Qed.

Lemma chain_append h own vs p v a :
  chain h own vs p -> NoDup own -> h a = None ->
  chain (upd (upd h a (Some (mk None None))) (last own 0) (Some (mk (Some v) (Some a))))
        (own ++ [a]) (vs ++ [v]) p.
Proof.
  intros C ND Ha.
  assert (Hna : ~ In a own) by (intros I; now apply (chain_alloc _ _ _ _ C a I)).
  induction C as [p d E|p q w own vs E C IH]; simpl app.
  - simpl last. apply chain_cons with a.
    + apply upd_same.
    + apply chain_end with None. rewrite upd_other, upd_same; auto.
      intros ->. apply Hna. now left.
  - inversion ND as [|? ? Hn ND']; subst.
    assert (Lc : last (p :: own) 0 = last own 0) by (destruct own; [inversion C|reflexivity]).
    rewrite Lc. apply chain_cons with q.
    + rewrite !upd_other; auto.
      * intros ->. apply Hna. now left.
      * intros ->. apply Hn. apply last_in. intros ->. inversion C.
    + apply IH; auto. intros I. apply Hna. now right.
Qed.

Lemma list_add_spec h own vs p v a fuel :
  chain h own vs p -> NoDup own -> h a = None -> length vs < fuel ->
  exists h', list_add fuel h p v a = Ret h'.
Proof.
  intros C ND Ha Hf. destruct (chain_last _ _ _ _ C fuel Hf) as (l & L & El).
  unfold list_add. rewrite L. simpl. unfold load.
  destruct (upd h a (Some (mk None None)) l) eqn:U.
  - simpl. eauto.
  - exfalso. assert (In l own).
    { rewrite <- El. apply last_in. destruct C; discriminate. }
    destruct (Nat.eq_dec l a) as [->|N].
    + rewrite upd_same in U. discriminate.
    + rewrite upd_other in U by auto. now apply (chain_alloc _ _ _ _ C l).
Qed.

Lemma list_add_chain h own vs p v a fuel h' :
  chain h own vs p -> NoDup own -> h a = None ->
  list_add fuel h p v a = Ret h' -> chain h' (own ++ [a]) (vs ++ [v]) p.
Proof.
  intros C ND Ha. unfold list_add.
  destruct (last_node fuel h p) as [l| |] eqn:L; try discriminate. simpl.
  pose proof (last_node_stable _ _ _ _ C _ _ L) as ->.
  destruct (load _ _) eqn:Q; try discriminate. simpl. intros [= <-].
  now apply chain_append.
Qed.

Lemma built_chain vs own h p :
  built vs own h p -> chain h own vs p /\ NoDup own.
Proof.
  induction 1 as [h a E|vs own h p fuel v a h' B [C ND] Ha L|vs own h h' p B [C ND] F].
  - split.
    + apply chain_end with (Some 0%Z). apply upd_same.
    + constructor; [intros []|constructor].
  - split.
    + eapply list_add_chain; eauto.
    + assert (~ In a own) by (intros I; now apply (chain_alloc _ _ _ _ C a I)).
      clear - ND H. induction own as [|x own IH]; simpl.
      * constructor; [intros []|constructor].
      * inversion ND; subst. constructor.
        -- rewrite in_app_iff. simpl. intros [I|[<-|[]]]; auto. apply H. now left.
        -- apply IH; auto. intros I. apply H. now right.
  - split; auto. eapply chain_frame; eauto.
Qed.

Lemma size_chain h own vs p : chain h own vs p ->
  forall fuel, length vs < fuel -> list_size fuel h p = Ret (length vs).
Proof.
  induction 1 as [p d E|p q v own vs E C IH]; intros fuel Hf;
    (destruct fuel; [simpl in Hf; lia|]); simpl; unfold load; rewrite E; simpl; auto.
  simpl in Hf. rewrite IH by lia. reflexivity.
Qed.

Lemma get_chain h own vs p : chain h own vs p ->
  forall i v, nth_error vs i = Some v -> list_get h p i = Ret v.
Proof.
  induction 1 as [p d E|p q w own vs E C IH]; intros i v N.
  - destruct i; discriminate.
  - destruct i; simpl in *; unfold load; rewrite E; simpl.
    + congruence. + now apply IH.
Qed.

Lemma get_beyond h own vs p : chain h own vs p ->
  forall i, length vs < i -> list_get h p i = UB.
Proof.
  induction 1 as [p d E|p q w own vs E C IH]; intros i Hi; simpl in Hi.
  - destruct i; [lia|]. simpl. unfold load. rewrite E. reflexivity.
  - destruct i; [lia|]. simpl. unfold load. rewrite E. simpl. apply IH. lia.
Qed.

Lemma free_loop_chain : forall vs own h p nx,
  chain h own vs p -> NoDup own ->
  (exists d, h p = Some (mk d nx)) ->
  exists h1 l, free_loop (length vs) h p nx = Ret (h1, l) /\
    exists h2, free h1 l = Ret h2 /\
      (forall a, In a own -> h2 a = None) /\ (forall a, ~ In a own -> h2 a = h a).
Proof.
  induction vs as [|v vs IH]; intros own h p nx C ND (d & Hp); inversion C as [p0 d0 E|p0 q v0 own' vs' E C']; subst.
  - exists h, p. split; [reflexivity|]. unfold free. rewrite E. eexists; split; [reflexivity|].
    split; intros a Ia.
    + destruct Ia as [<-|[]]. apply upd_same.
    + apply upd_other. intros ->. apply Ia. now left.
  - rewrite E in Hp. injection Hp as <- <-.
    inversion ND as [|? ? Hn ND']; subst.
    simpl. unfold free at 1. rewrite E. simpl.
    set (h1 := upd h p None).
    assert (C1 : chain h1 own' vs q).
    { eapply chain_frame; [exact C'|]. intros a Ia. unfold h1. apply upd_other.
      intros ->. contradiction. }
    assert (X : exists n, h1 q = Some n).
    { destruct (chain_head _ _ _ _ C1) as [t ->].
      destruct (h1 q) eqn:Q; eauto. exfalso.
      now apply (chain_alloc _ _ _ _ C1 q (or_introl eq_refl)). }
    destruct X as [[dq nq] Hq]. unfold load. rewrite Hq. simpl.
    destruct (IH own' h1 q nq C1 ND' ltac:(eauto)) as (h2 & l & F & h3 & F2 & A & B).
    exists h2, l. split; [exact F|]. exists h3. split; [exact F2|]. split; intros a Ia.
    + destruct Ia as [<-|Ia]; [|now apply A]. rewrite B by auto. apply upd_same.
    + rewrite B by (intros I; apply Ia; now right). apply upd_other.
      intros ->. apply Ia. now left.
Qed.

Lemma list_free_built vs own h p fuel :
  built vs own h p -> length vs < fuel ->
  exists h', list_free fuel h p = Ret h' /\
    (forall a, In a own -> h a <> None /\ h' a = None) /\
    (forall a, ~ In a own -> h' a = h a).
Proof.
  intros B Hf. destruct (built_chain _ _ _ _ B) as [C ND].
  unfold list_free. rewrite (size_chain _ _ _ _ C fuel Hf). simpl.
  destruct (h p) as [[d nx]|] eqn:E.
  - unfold load. rewrite E. simpl.
    destruct (free_loop_chain _ _ _ _ nx C ND ltac:(eauto)) as (h1 & l & F & h2 & F2 & A & A').
    rewrite F. simpl. exists h2. split; [exact F2|]. split; auto.
    intros a Ia. split; auto. now apply (chain_alloc _ _ _ _ C).
  - exfalso. destruct (chain_head _ _ _ _ C) as [t ->].
    now apply (chain_alloc _ _ _ _ C p (or_introl eq_refl)).
Qed.

Lemma built_size vs own h p fuel :
  built vs own h p -> length vs < fuel -> list_size fuel h p = Ret (length vs).
Proof. intros B. destruct (built_chain _ _ _ _ B). eapply size_chain; eauto. Qed.

Lemma built_get vs own h p i v :
  built vs own h p -> nth_error vs i = Some v -> list_get h p i = Ret v.
Proof. intros B. destruct (built_chain _ _ _ _ B). eapply get_chain; eauto. Qed.

Lemma built_get_beyond vs own h p i :
  built vs own h p -> length vs < i -> list_get h p i = UB.
Proof. intros B. destruct (built_chain _ _ _ _ B). eapply get_beyond; eauto. Qed.

Lemma built_add_ok vs own h p v a fuel :
  built vs own h p -> h a = None -> length vs < fuel ->
  exists h', list_add fuel h p v a = Ret h'.
Proof. intros B. destruct (built_chain _ _ _ _ B). eapply list_add_spec; eauto. Qed.

Lemma chain_last_data h own vs p : chain h own vs p ->
  forall d, (exists nx, h (last own 0) = Some (mk d nx)) ->
  list_get h p (length vs) = match d with Some x => Ret x | None => UB end.
Proof.
  induction 1 as [p d0 E|p q v own vs E C IH]; intros d (nx & Hl).
  - simpl in *. unfold load. rewrite E in *. injection Hl as <- <-. simpl. now destruct d0.
  - simpl list_get. unfold load. rewrite E. simpl. apply IH. exists nx.
    destruct own; [inversion C|]. exact Hl.
Qed.

(** Reading at index [size] after at least one addition reads the unwritten
    field of the sentinel. *)
Lemma sentinel_uninit vs own h p :
  built vs own h p -> vs <> [] -> h (last own 0) = Some (mk None None).
Proof.
  induction 1 as [h a E|vs own h p fuel v a h' B IH Ha L|vs own h h' p B IH F]; intros Nv.
  - congruence.
  - rewrite last_last. destruct (built_chain _ _ _ _ B) as [C ND].
    unfold list_add in L.
    destruct (last_node fuel h p) as [l| |] eqn:Q; try discriminate. simpl in L.
    pose proof (last_node_stable _ _ _ _ C _ _ Q) as ->.
    destruct (load _ _); try discriminate. simpl in L. injection L as <-.
    rewrite upd_other, upd_same; auto. intros ->.
    apply (chain_alloc _ _ _ _ C (last own 0)); auto. apply last_in. destruct C; discriminate.
  - rewrite F; [now apply IH|].
    destruct (built_chain _ _ _ _ B) as [C ND]. apply last_in. destruct C; discriminate.
Qed.

Lemma built_get_at_size vs own h p :
  built vs own h p -> vs <> [] -> list_get h p (length vs) = UB.
Proof.
  intros B Nv. destruct (built_chain _ _ _ _ B) as [C ND].
  rewrite (chain_last_data _ _ _ _ C None); auto.
  exists None. eapply sentinel_uninit; eauto.
Qed.
