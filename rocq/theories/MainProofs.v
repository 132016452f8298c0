From Coq Require Import ZArith List String Bool Arith Lia Permutation Sorted.
Import ListNotations.
From Verif Require Import StateModel MpiModel MpiProofs EndcondModel EndcondProofs ErrorModel ErrorProofs Math2Model Math2Proofs MainModel.
Local Open Scope string_scope.
Local Open Scope nat_scope.

(** ** Command line *)
(** the last argument that [f] selects *)
Fixpoint last_of {A} (f : opt -> option A) (l : list opt) : option A :=
  match l with [] => None | o :: l => match last_of f l with Some x => Some x | None => f o end end.
Definition in_arg (o : opt) := match o with OIn s => Some s | _ => None end.
Definition out_arg (o : opt) := match o with OOut s => Some s | _ => None end.
Definition size_arg (o : opt) := match o with OSize s => Some s | _ => None end.
Definition rank_arg (o : opt) := match o with ORank s => Some s | _ => None end.
Definition desc_arg (o : opt) := match o with ODesc s => Some s | _ => None end.
Definition qid_arg (k : kind) (o : opt) := match o with OQid k' s => if kind_beq k k' then Some s else None | _ => None end.
Definition dflt {A B} (o : option A) (d : B) (f : A -> B) : B := match o with Some x => f x | None => d end.
(** the file meant by a non-empty argument: the extension may be left out *)
Definition resolves (arg file : string) : Prop :=
  (exists b, b <> "" /\ arg = b ++ ".h5" /\ file = arg) \/ ((forall b, b <> "" -> arg <> b ++ ".h5") /\ file = arg ++ ".h5").
(** the arrays are long enough for this argument *)
Definition text (o : opt) : string :=
  match o with OIn s | OOut s | ODesc s | OQid _ s => s | OSize _ | ORank _ | OBad => "" end.
Definition fits (o : opt) : Prop := String.length (text o) < 256.

Lemma sapp_length : forall a b, String.length (a ++ b) = String.length a + String.length b.
Proof. induction a; intros; cbn; auto. Qed.
Lemma app_empty : forall a, a ++ "" = a.
Proof. induction a; cbn; congruence. Qed.
Lemma substring_all : forall s, substring 0 (String.length s) s = s.
Proof. induction s; cbn; congruence. Qed.
Lemma split_at : forall s n, n <= String.length s -> s = substring 0 n s ++ substring n (String.length s - n) s.
Proof.
  induction s as [|c s IH]; intros n H; cbn in *.
  - destruct n; [reflexivity|lia].
  - destruct n; cbn.
    + f_equal. symmetry. apply substring_all.
    + f_equal. apply IH. lia.
Qed.
Lemma substring_app_l : forall a b, substring 0 (String.length a) (a ++ b) = a.
Proof. induction a; intros; cbn; [now destruct b|]. now rewrite IHa. Qed.
Lemma substring_app_r : forall a b, substring (String.length a) (String.length b) (a ++ b) = b.
Proof. induction a; intros; cbn; [apply substring_all|]. apply IHa. Qed.
Lemma length_zero : forall s, String.length s = 0 -> s = "".
Proof. now destruct s. Qed.
Lemma app_neq_empty : forall a b, b <> "" -> a ++ b <> "".
Proof. destruct a; cbn; [auto|discriminate]. Qed.

(** what the file-name part keeps of an argument *)
Definition base (s : string) : string :=
  if (3 <? String.length s) && String.eqb (substring (String.length s - 3) 3 s) ".h5" then substring 0 (String.length s - 3) s else s.
Lemma base_resolves : forall s, s <> "" -> base s <> "" /\ resolves s (base s ++ ".h5").
Proof.
  intros s NE. unfold base. destruct (Nat.ltb_spec 3 (String.length s)) as [L|L]; cbn [andb].
  - destruct (String.eqb_spec (substring (String.length s - 3) 3 s) ".h5") as [E|E].
    + pose proof (split_at s (String.length s - 3) ltac:(lia)) as SP.
      replace (String.length s - (String.length s - 3)) with 3 in SP by lia. rewrite E in SP.
      assert (N : substring 0 (String.length s - 3) s <> "").
      { intros Q. rewrite Q in SP. rewrite SP in L. cbn in L. lia. }
      split; [exact N|]. left. exists (substring 0 (String.length s - 3) s). repeat split; auto.
    + split; [exact NE|]. right. split; [|reflexivity]. intros b NB Q. apply E. rewrite Q, sapp_length. cbn [String.length].
      replace (String.length b + 3 - 3) with (String.length b) by lia.
      exact (substring_app_r b ".h5").
  - split; [exact NE|]. right. split; [|reflexivity]. intros b NB Q. rewrite Q, sapp_length in L. cbn in L.
    apply NB. apply length_zero. lia.
Qed.
Lemma base_empty : base "" = "".
Proof. reflexivity. Qed.
Lemma resolves_fun : forall s f g, resolves s f -> resolves s g -> f = g.
Proof.
  intros s f g [(b & NB & E & ->)|[N ->]] [(b' & NB' & E' & ->)|[N' ->]]; auto.
  - exfalso. eapply N'; eauto.
  - exfalso. eapply N; eauto.
Qed.
Lemma bind_ok : forall A B (o : outcome A) (f : A -> outcome B) b, bind o f = Ok b <-> exists a, o = Ok a /\ f a = Ok b.
Proof.
  intros A B [a| |] f b; cbn; split; intros H; try discriminate; try (destruct H as (? & ? & ?); congruence). eauto.
Qed.
Lemma store_ok : forall s t, store s = Ok t <-> String.length s < 256 /\ t = s.
Proof.
  intros s t. unfold store. destruct (Nat.ltb_spec (String.length s) 256); split; try intros [? ->]; intros; try lia; try congruence.
  split; [lia|congruence].
Qed.
Lemma store_file_eq : forall s, store_file s = if String.length s <? 256 then Ok (base s) else Overflow.
Proof. intros s. unfold store_file, store, base. now destruct (String.length s <? 256). Qed.

Section args.
Variable atoi : string -> Z.
Lemma arg1_ok : forall o c c', arg1 atoi o c = Ok c' -> o <> OBad /\ fits o /\
  hin c' = dflt (in_arg o) (hin c) base /\ hout c' = dflt (out_arg o) (hout c) base /\
  msize c' = dflt (size_arg o) (msize c) atoi /\ mrank c' = dflt (rank_arg o) (mrank c) atoi /\
  desc c' = dflt (desc_arg o) (desc c) (fun s => s) /\ forall k, qid c' k = dflt (qid_arg k o) (qid c k) (fun s => s).
Proof.
  intros o c c' H. destruct o; cbn [arg1] in H; unfold fits; cbn [text].
  1,2: rewrite store_file_eq in H; destruct (Nat.ltb_spec (String.length s) 256); cbn [bind] in H; [|discriminate];
    injection H as <-; repeat split; auto; discriminate.
  1,2: injection H as <-; repeat split; auto; try discriminate; cbn; lia.
  - unfold store in H. destruct (Nat.ltb_spec (String.length s) 256); cbn [bind] in H; [|discriminate].
    injection H as <-; repeat split; auto; discriminate.
  - unfold store in H. destruct (Nat.ltb_spec (String.length s) 256); cbn [bind] in H; [|discriminate].
    injection H as <-; repeat split; auto; try discriminate. intros k'. cbn. now destruct (kind_beq k' k).
  - discriminate.
Qed.
Lemma arg1_fits : forall o c, o <> OBad -> fits o -> exists c', arg1 atoi o c = Ok c'.
Proof.
  intros o c NB F. unfold fits in F. destruct o; cbn [text] in F; cbn [arg1]; try rewrite store_file_eq; unfold store;
    repeat match goal with |- context [?a <? ?b] => destruct (Nat.ltb_spec a b); [|lia] end; cbn [bind]; eauto. congruence.
Qed.
Lemma dflt_dflt : forall A B (o o' : option A) (d : B) f, dflt o (dflt o' d f) f = dflt (match o with Some x => Some x | None => o' end) d f.
Proof. now destruct o. Qed.
Lemma args_ok : forall l c c', args atoi l c = Ok c' -> (forall o, In o l -> o <> OBad /\ fits o) /\
  hin c' = dflt (last_of in_arg l) (hin c) base /\ hout c' = dflt (last_of out_arg l) (hout c) base /\
  msize c' = dflt (last_of size_arg l) (msize c) atoi /\ mrank c' = dflt (last_of rank_arg l) (mrank c) atoi /\
  desc c' = dflt (last_of desc_arg l) (desc c) (fun s => s) /\ forall k, qid c' k = dflt (last_of (qid_arg k) l) (qid c k) (fun s => s).
Proof.
  induction l as [|o l IH]; intros c c' H; cbn [args] in H.
  - injection H as <-. split; [intros o []|]. repeat split; auto.
  - apply bind_ok in H. destruct H as (c1 & E1 & E2). apply arg1_ok in E1. apply IH in E2.
    destruct E1 as (NB & F & A1 & A2 & A3 & A4 & A5 & A6), E2 as (G & B1 & B2 & B3 & B4 & B5 & B6).
    split; [intros o' [<-|I]; auto|]. cbn [last_of].
    rewrite B1, B2, B3, B4, B5, A1, A2, A3, A4, A5. repeat split; try apply dflt_dflt.
    intros k. rewrite B6, A6. apply dflt_dflt.
Qed.
Lemma args_fits : forall l c, (forall o, In o l -> o <> OBad /\ fits o) -> exists c', args atoi l c = Ok c'.
Proof.
  induction l as [|o l IH]; intros c H; cbn [args]; [eauto|].
  destruct (arg1_fits o c) as [c1 E]; [apply H; now left | apply H; now left|]. rewrite E. cbn [bind]. apply IH. intros. apply H. now right.
Qed.
Lemma args_rejected : forall l c, args atoi l c = Rejected <-> exists l1 l2, l = (l1 ++ OBad :: l2)%list /\ forall o, In o l1 -> o <> OBad /\ fits o.
Proof.
  induction l as [|o l IH]; intros c; cbn [args].
  - split; [discriminate|]. intros ([|] & l2 & E & _); discriminate.
  - destruct (arg1 atoi o c) as [c1| |] eqn:E1; cbn [bind].
    + pose proof (arg1_ok _ _ _ E1) as (NB & F & _). rewrite IH. split.
      * intros (l1 & l2 & -> & H). exists (o :: l1)%list, l2. split; auto. intros o' [<-|I]; auto.
      * intros ([|o1 l1] & l2 & E & H).
        { injection E as -> ->. congruence. }
        injection E as -> ->. exists l1, l2. split; auto. intros. apply H. now right.
    + split; auto. intros _. assert (o = OBad).
      { destruct o; cbn [arg1] in E1; auto; try discriminate; try rewrite store_file_eq in E1; unfold store in E1;
          match type of E1 with context [if ?b then _ else _] => destruct b end; discriminate. }
      subst. exists [], l. split; auto. intros o [].
    + split; [discriminate|]. intros ([|o1 l1] & l2 & E & H).
      * injection E as -> ->. discriminate.
      * injection E as -> ->. destruct (arg1_fits o1 c) as [c1 Q]; [apply H; now left|apply H; now left|congruence].
Qed.
End args.

(** the names of the files *)
Definition given (o : option string) : option string := match o with Some "" | None => None | Some s => Some s end.
Definition is_in (l : list opt) (f : string) : Prop :=
  match given (last_of in_arg l) with None => f = "ascot.h5" | Some s => resolves s f end.
Definition is_out (l : list opt) (f : string) : Prop :=
  match given (last_of out_arg l) with None => is_in l f | Some s => resolves s f end.
Lemma given_base : forall o, (given o = None /\ dflt o "" base = "") \/
  (exists s, given o = Some s /\ s <> "" /\ dflt o "" base = base s /\ base s <> "" /\ resolves s (base s ++ ".h5")).
Proof.
  intros [s|]; [|now left]. destruct s; [left; auto|right]. set (t := String a s). assert (t <> "") by (unfold t; discriminate).
  exists t. destruct (base_resolves t H). unfold t at 1. cbn [given]. repeat split; auto.
Qed.
Lemma file_names_spec : forall l c, hin c = dflt (last_of in_arg l) "" base -> hout c = dflt (last_of out_arg l) "" base ->
  exists i o, is_in l i /\ is_out l o /\
   file_names c = if (String.length i <? 256) && (String.length o <? 256) then Ok (mkconf i o (msize c) (mrank c) (desc c) (qid c)) else Overflow.
Proof.
  intros l c HI HO. unfold file_names, is_out, is_in, store.
  destruct (given_base (last_of in_arg l)) as [[GI BI]|(s & GI & NI & BI & NBI & RI)]; rewrite GI; rewrite BI in HI; rewrite HI;
  destruct (given_base (last_of out_arg l)) as [[GO BO]|(t & GO & NO & BO & NBO & RO)]; rewrite GO; rewrite BO in HO; rewrite HO;
  repeat match goal with
  | |- context [String.eqb "" ""] => replace (String.eqb "" "") with true by reflexivity
  | H : ?b <> "" |- context [String.eqb ?b ""] => replace (String.eqb b "") with false by (symmetry; now apply String.eqb_neq)
  end.
  - exists "ascot.h5", "ascot.h5". repeat split; auto.
  - exists "ascot.h5", (base t ++ ".h5"). repeat split; auto.
    replace (String.length "ascot.h5" <? 256) with true by reflexivity. cbn [andb]. destruct (_ <? 256); auto.
  - exists (base s ++ ".h5"), (base s ++ ".h5"). repeat split; auto. destruct (_ <? 256); auto.
  - exists (base s ++ ".h5"), (base t ++ ".h5"). repeat split; auto.
    destruct (String.length (base s ++ ".h5") <? 256); cbn [bind andb]; auto. destruct (String.length (base t ++ ".h5") <? 256); auto.
Qed.
Lemma resolves_ex : forall l, exists i, is_in l i.
Proof.
  intros l. unfold is_in. destruct (given_base (last_of in_arg l)) as [[GI BI]|(s & GI & NI & BI & NBI & RI)]; rewrite GI; eauto.
Qed.
Lemma is_in_fun : forall l a b, is_in l a -> is_in l b -> a = b.
Proof. intros l a b. unfold is_in. destruct (given _); [apply resolves_fun|congruence]. Qed.
Lemma is_out_fun : forall l a b, is_out l a -> is_out l b -> a = b.
Proof. intros l a b. unfold is_out. destruct (given _); [apply resolves_fun|apply is_in_fun]. Qed.

(** read_arguments: exact outcome *)
Lemma read_ok : forall atoi l c, read_arguments atoi l = Ok c ->
  is_in l (hin c) /\ is_out l (hout c) /\
  msize c = dflt (last_of size_arg l) 0%Z atoi /\ mrank c = dflt (last_of rank_arg l) 0%Z atoi /\
  desc c = dflt (last_of desc_arg l) "No description." (fun s => s) /\
  forall k, qid c k = dflt (last_of (qid_arg k) l) "" (fun s => s).
Proof.
  intros atoi l c H. unfold read_arguments in H. apply bind_ok in H. destruct H as (c1 & E1 & E2).
  apply args_ok in E1. destruct E1 as (G & A1 & A2 & A3 & A4 & A5 & A6).
  destruct (file_names_spec l c1 A1 A2) as (i & o & II & IO & F). rewrite F in E2.
  destruct (_ && _); try discriminate. injection E2 as <-. cbn in *. repeat split; auto.
Qed.
Lemma read_accepts : forall atoi l, (exists c, read_arguments atoi l = Ok c) <->
  (forall o, In o l -> o <> OBad /\ fits o) /\ (forall f, is_in l f \/ is_out l f -> String.length f < 256).
Proof.
  intros atoi l. split.
  - intros [c H]. unfold read_arguments in H. apply bind_ok in H. destruct H as (c1 & E1 & E2).
    apply args_ok in E1. destruct E1 as (G & A1 & A2 & A3 & A4 & A5 & A6).
    destruct (file_names_spec l c1 A1 A2) as (i & o & II & IO & F). rewrite F in E2. split; [exact G|].
    destruct (Nat.ltb_spec (String.length i) 256), (Nat.ltb_spec (String.length o) 256); cbn [andb] in E2; try discriminate.
    intros f [Q|Q]; [rewrite (is_in_fun _ _ _ Q II)|rewrite (is_out_fun _ _ _ Q IO)]; auto.
  - intros [G L]. destruct (args_fits atoi l defaults G) as [c1 E1]. pose proof E1 as E0. unfold read_arguments. rewrite E1. cbn [bind].
    apply args_ok in E0. destruct E0 as (_ & A1 & A2 & _).
    destruct (file_names_spec l c1 A1 A2) as (i & o & II & IO & F). rewrite F.
    destruct (Nat.ltb_spec (String.length i) 256), (Nat.ltb_spec (String.length o) 256); cbn [andb]; eauto;
      [pose proof (L o (or_intror IO))|pose proof (L i (or_introl II))|pose proof (L i (or_introl II))]; lia.
Qed.
Lemma read_rejected : forall atoi l, read_arguments atoi l = Rejected <->
  exists l1 l2, l = (l1 ++ OBad :: l2)%list /\ forall o, In o l1 -> o <> OBad /\ fits o.
Proof.
  intros atoi l. rewrite <- (args_rejected atoi l defaults). unfold read_arguments.
  destruct (args atoi l defaults) as [c1| |] eqn:E; cbn [bind]; split; auto; try discriminate.
  apply args_ok in E. destruct E as (_ & A1 & A2 & _). destruct (file_names_spec l c1 A1 A2) as (i & o & II & IO & F). rewrite F.
  destruct (_ && _); discriminate.
Qed.
(** leaving out the extension of a file name makes no difference *)
Lemma resolves_ext : forall s, s <> "" -> (forall b, b <> "" -> s <> b ++ ".h5") -> resolves s (s ++ ".h5") /\ resolves (s ++ ".h5") (s ++ ".h5").
Proof. intros s N H. split; [right|left]; [auto|]. exists s. auto. Qed.
Lemma long_refuted : forall atoi s, 256 <= String.length s -> read_arguments atoi [ODesc s] = Overflow /\ read_arguments atoi [OIn s] = Overflow /\ forall k, read_arguments atoi [OQid k s] = Overflow.
Proof.
  intros atoi s L. unfold read_arguments. cbn [args arg1]. rewrite store_file_eq. unfold store.
  destruct (Nat.ltb_spec (String.length s) 256); [lia|]. auto.
Qed.
Lemma double_ext_refuted : forall atoi, exists c, read_arguments atoi [OIn ".h5"] = Ok c /\ hin c = ".h5.h5".
Proof. intros. eexists. split; reflexivity. Qed.

(** ** Markers *)
Section gath.
Context {X : Type}.
Lemma gather_local n size (local : nat -> nat -> pstate X) : 1 <= size ->
  exists all, gather n size local = Some all /\ List.length all = n /\
   forall i j, i < size -> j < count_of n size i -> rd all (start_of n size i + j) = Some (local i j).
Proof.
  intros H1. unfold gather.
  destruct (my_particles n 0 size) as [s0 n0] eqn:E0.
  assert (Es : s0 = 0) by (unfold my_particles in E0; injection E0; lia). subst s0.
  assert (Ec : count_of n size 0 = n0) by (unfold count_of; now rewrite E0).
  assert (Ez : start_of n size 0 = 0) by (unfold start_of; now rewrite E0).
  assert (Hn0 : n0 <= n).
  { destruct (Nat.eq_dec size 1) as [->|N].
    - pose proof (start_last n 1 H1). cbn [Nat.sub] in *. lia.
    - pose proof (start_le_mono n size 0 (size - 1) H1 ltac:(lia) ltac:(lia)).
      pose proof (start_last n size H1). lia. }
  destruct (copy_own_ok (local 0) (seq 0 n0) (malloc (pstate X) n)) as (a1 & C & L1 & A1 & B1).
  { intros j I. apply in_seq in I. unfold malloc. rewrite repeat_length. lia. }
  { apply seq_NoDup. }
  unfold malloc in L1. rewrite repeat_length in L1. rewrite C.
  destruct (recv_ok n size local H1 (size - 1) 1 a1 ltac:(lia) ltac:(lia) L1) as (all & R & L & A & B).
  exists all. split; [exact R|]. split; [exact L|]. intros i j Hi Hj. destruct (Nat.eq_dec i 0) as [->|N].
  - rewrite Ez. cbn [Nat.add]. rewrite B.
    + apply A1. apply in_seq. lia.
    + intros Q. rewrite <- start_next by lia. lia.
  - apply A; [lia|auto].
Qed.
Lemma rd_all : forall (all : buf (pstate X)) l, List.length all = List.length l -> (forall g, g < List.length l -> rd all g = nth_error l g) -> all = map Some l.
Proof.
  induction all as [|a all IH]; intros [|x l] L H; try discriminate; auto. cbn [map]. f_equal.
  - specialize (H 0 ltac:(cbn; lia)). unfold rd in H. cbn in H. now destruct a.
  - apply IH; [cbn in L; lia|]. intros g Hg. specialize (H (S g) ltac:(cbn; lia)). exact H.
Qed.
(** the gathered array in one expression: the blocks of the processes, one after the other *)
Lemma concat_block : forall (n size : nat) (blk : nat -> list (pstate X)), 1 <= size -> (forall i, i < size -> List.length (blk i) = count_of n size i) ->
  List.length (flat_map blk (seq 0 size)) = n /\
  forall i j, i < size -> j < count_of n size i -> nth_error (flat_map blk (seq 0 size)) (start_of n size i + j) = nth_error (blk i) j.
Proof.
  intros n size blk H1 HL.
  assert (P : forall k, k <= size -> List.length (flat_map blk (seq 0 k)) = (if Nat.eqb k size then n else start_of n size k)).
  { induction k as [|k IH]; intros Hk.
    - destruct (Nat.eqb_spec 0 size); [lia|]. reflexivity.
    - rewrite seq_S, flat_map_app, List.app_length, IH by lia. cbn [flat_map Nat.add]. rewrite app_nil_r, HL by lia.
      destruct (Nat.eqb_spec k size); [lia|]. destruct (Nat.eqb_spec (S k) size) as [Q|Q].
      + replace k with (size - 1) by lia. apply start_last; auto.
      + apply start_next; lia. }
  split; [rewrite P by lia; now rewrite Nat.eqb_refl|].
  intros i j Hi Hj. replace (seq 0 size) with (seq 0 i ++ i :: seq (S i) (size - S i))%list.
  - rewrite flat_map_app. cbn [flat_map]. rewrite nth_error_app2; rewrite P by lia; destruct (Nat.eqb_spec i size); try lia.
    replace (start_of n size i + j - start_of n size i) with j by lia. apply nth_error_app1. rewrite HL by lia. lia.
  - replace (i :: seq (S i) (size - S i))%list with (seq i (S (size - S i))) by reflexivity. rewrite <- seq_app. f_equal. lia.
Qed.
Lemma gather_blocks n size (dummy : pstate X) (blk : nat -> list (pstate X)) : 1 <= size -> (forall i, i < size -> List.length (blk i) = count_of n size i) ->
  gather n size (fun i j => nth j (blk i) dummy) = Some (map Some (flat_map blk (seq 0 size))).
Proof.
  intros H1 HL. destruct (gather_local n size (fun i j => nth j (blk i) dummy) H1) as (all & -> & L & A). f_equal.
  destruct (concat_block n size blk H1 HL) as [LC NC].
  apply rd_all; [lia|]. rewrite LC. intros g Hg. destruct (partition_unique n size g H1 Hg) as (i & [Hi Hb] & _).
  destruct (my_particles n i size) as [s m] eqn:E.
  assert (Es : start_of n size i = s) by (unfold start_of; now rewrite E).
  assert (Ecn : count_of n size i = m) by (unfold count_of; now rewrite E).
  replace g with (start_of n size i + (g - s)) by lia. rewrite A, NC by lia. symmetry. apply nth_error_nth'. rewrite HL by lia. lia.
Qed.
End gath.
Section pipe.
Context {I X : Type}.
Variables (conv : I -> pstate X) (dummy : pstate X).
Lemma prepare_length : forall inp size i, 1 <= size -> i < size ->
  List.length (prepare_markers conv inp i size) = count_of (List.length inp) size i.
Proof.
  intros inp size i H1 Hi. unfold prepare_markers. destruct (my_particles _ _ _) as [s m] eqn:E.
  rewrite map_length, firstn_length, skipn_length. unfold count_of. rewrite E. cbn [snd].
  assert (s + m <= List.length inp); [|lia].
  pose proof (start_last (List.length inp) size H1) as SL. unfold start_of, count_of in SL.
  destruct (Nat.eq_dec i (size - 1)) as [->|N]; [rewrite E in SL; cbn in SL; lia|].
  pose proof (start_le_mono (List.length inp) size i (size - 1) H1 ltac:(lia) ltac:(lia)) as M. unfold start_of, count_of in M. rewrite E in M. cbn [fst snd] in M. lia.
Qed.
Lemma firstn_skipn_seq : forall A (l : list A) s m d, s + m <= List.length l -> firstn m (skipn s l) = map (fun g => nth g l d) (seq s m).
Proof.
  induction l as [|x l IH]; intros s m d H.
  - cbn in H. assert (s = 0) by lia. assert (m = 0) by lia. subst. reflexivity.
  - destruct s.
    + destruct m; [reflexivity|]. cbn in H. cbn [skipn firstn seq map nth]. f_equal. specialize (IH 0 m d ltac:(lia)). cbn [skipn] in IH. rewrite IH.
      rewrite <- seq_shift, map_map. reflexivity.
    + cbn in H. cbn [skipn]. rewrite (IH s m d) by lia. rewrite <- seq_shift, map_map. reflexivity.
Qed.
Lemma prepare_all : forall inp size, 1 <= size ->
  flat_map (fun i => prepare_markers conv inp i size) (seq 0 size) = map conv inp.
Proof.
  intros [|x inp0] size H1.
  - assert (forall k, flat_map (fun i => prepare_markers conv [] i size) (seq 0 k) = []); [|auto].
    intros k. induction (seq 0 k); auto. cbn [flat_map]. rewrite IHl. unfold prepare_markers. destruct (my_particles _ _ _). now rewrite skipn_nil, firstn_nil.
  - set (inp := (x :: inp0)%list). transitivity (map (fun g => conv (nth g inp x)) (seq 0 (List.length inp))).
    + rewrite <- (partition_cover (List.length inp) size H1), flat_map_concat_map, flat_map_concat_map, concat_map, map_map. f_equal. apply map_ext_in. intros i Hi. apply in_seq in Hi.
      pose proof (prepare_length inp size i H1 ltac:(lia)) as PL. unfold count_of in PL. unfold prepare_markers in *. destruct (my_particles _ _ _) as [s m]. cbn [snd] in PL.
      rewrite map_length, firstn_length, skipn_length in PL.
      destruct (Nat.eq_dec m 0) as [->|]; [reflexivity|].
      rewrite (firstn_skipn_seq _ _ _ _ x) by lia. now rewrite map_map.
    + rewrite <- map_map. f_equal. pose proof (firstn_skipn_seq _ inp 0 (List.length inp) x ltac:(lia)) as Q. cbn [skipn] in Q. rewrite firstn_all in Q. now symmetry.
Qed.
Lemma inistate_all : forall inp size, 1 <= size -> inistate conv dummy inp size = Some (map Some (map conv inp)).
Proof.
  intros inp size H1. unfold inistate. rewrite <- (prepare_all inp size H1). apply (gather_blocks (List.length inp) size dummy (fun i => prepare_markers conv inp i size)); auto.
  intros i Hi. now apply prepare_length.
Qed.
Lemma endstate_blocks : forall sim inp size, 1 <= size -> (forall r l, List.length (sim r l) = List.length l) ->
  endstate conv sim dummy inp size = Some (map Some (flat_map (fun r => sim r (prepare_markers conv inp r size)) (seq 0 size))).
Proof.
  intros sim inp size H1 HL. apply (gather_blocks (List.length inp) size dummy (fun i => sim i (prepare_markers conv inp i size))); auto.
  intros i Hi. rewrite HL. now apply prepare_length.
Qed.
Lemma endstate_all : forall f sim inp size, 1 <= size -> (forall r l, sim r l = map f l) ->
  endstate conv sim dummy inp size = Some (map Some (map f (map conv inp))).
Proof.
  intros f sim inp size H1 HS. rewrite endstate_blocks; auto.
  - do 2 f_equal. rewrite <- (prepare_all inp size H1), !flat_map_concat_map, concat_map, map_map. f_equal. apply map_ext. auto.
  - intros. now rewrite HS, map_length.
Qed.
End pipe.

(** ** Arrays *)
Lemma arrays_ok : main_arrays true true true = Done Freed Freed Freed.
Proof. reflexivity. Qed.
Lemma arrays_iff : forall r g o, main_arrays r g o = Undefined <-> r = true /\ (g = false \/ o = false).
Proof. intros [] [] []; cbn; split; intros H; try discriminate; auto; destruct H as [? [?|?]]; discriminate. Qed.

(** ** Summary *)
Definition cond_name (c : cond) : string :=
  match c with
  | Tlim => "Sim time limit" | Emin => "Min energy" | Therm => "Thermalization" | Wall => "Wall collision"
  | Rhomin => "Min rho" | Rhomax => "Max rho" | Polmax => "Max poloidal orbits" | Tormax => "Max toroidal orbits"
  | Cpumax => "CPU time exceeded" | Hybrid => "Hybrid condition" | Neutr => "Neutralization" | Ioniz => "Ionization" end.
Definition active (e : Z) : list cond := filter (fun c => Z.testbit e (bitno c)) all_conds.
Definition describes (e : Z) (s : string) : Prop :=
  (active e = [] /\ s = "Aborted") \/ (active e <> [] /\ s = String.concat " and " (map cond_name (active e))).

Lemma endcond_str_name : forall c, endcond_str (bitno c + 1) = cond_name c.
Proof. now destruct c. Qed.
Lemma parse_active : forall e, endcond_parse e = map (fun c => (bitno c + 1)%Z) (active e).
Proof.
  intros e. rewrite parse_alt. unfold active. induction all_conds as [|c l IH]; [reflexivity|]. cbn [flat_map filter].
  destruct (Z.testbit e (bitno c)); cbn [map app]; now rewrite IH.
Qed.
Fixpoint total (l : list cond) : nat := match l with [] => 0 | c :: l => 5 + String.length (cond_name c) + total l end.
Lemma total_filter : forall f l, total (filter f l) <= total l.
Proof. induction l as [|c l IH]; cbn [filter total]; [lia|]. destruct (f c); cbn [total]; lia. Qed.
Lemma app_assoc_s : forall a b c : string, (a ++ b) ++ c = a ++ b ++ c.
Proof. induction a; intros; cbn; congruence. Qed.
Lemma cat_rest : forall l s, String.length s + total l < 256 ->
  cat_conds false s (map (fun c => bitno c + 1)%Z l) = Ok (fold_left (fun s c => s ++ " and " ++ cond_name c) l s).
Proof.
  induction l as [|c l IH]; intros s H; [reflexivity|]. cbn [map cat_conds total fold_left] in *.
  unfold store at 1. rewrite sapp_length. cbn [String.length].
  destruct (Nat.ltb_spec (String.length s + 5) 256); [|lia]. cbn [bind]. rewrite endcond_str_name.
  unfold store. rewrite !sapp_length. cbn [String.length]. destruct (Nat.ltb_spec (String.length s + 5 + String.length (cond_name c)) 256); [|lia].
  cbn [bind]. rewrite IH; [now rewrite app_assoc_s|]. rewrite !sapp_length. cbn [String.length]. lia.
Qed.
Lemma concat_fold : forall l c s, s ++ String.concat " and " (map cond_name (c :: l)) = fold_left (fun s c => s ++ " and " ++ cond_name c) l (s ++ cond_name c).
Proof.
  induction l as [|d l IH]; intros c s; [reflexivity|].
  change (String.concat " and " (map cond_name (c :: d :: l))) with (cond_name c ++ " and " ++ String.concat " and " (map cond_name (d :: l))).
  cbn [fold_left]. specialize (IH d ((s ++ cond_name c) ++ " and ")).
  replace ((s ++ cond_name c) ++ " and " ++ cond_name d) with (((s ++ cond_name c) ++ " and ") ++ cond_name d) by (now rewrite !app_assoc_s).
  rewrite <- IH. now rewrite !app_assoc_s.
Qed.
Lemma cond_text_spec : forall e, exists s, cond_text e = Ok s /\ describes e s /\ String.length s < 256.
Proof.
  intros e. unfold cond_text, describes. rewrite parse_active.
  assert (T : total (active e) <= 230) by (etransitivity; [apply total_filter|vm_compute; lia]).
  destruct (active e) as [|c l] eqn:E.
  - exists "Aborted". cbn. repeat split; auto. lia.
  - cbn [map]. exists (fold_left (fun s c => s ++ " and " ++ cond_name c) l (cond_name c)). cbn [total] in T. repeat split.
    + cbn [cat_conds bind]. rewrite endcond_str_name. cbn [append]. unfold store.
      destruct (Nat.ltb_spec (String.length (cond_name c)) 256); [|lia]. cbn [bind]. apply cat_rest. lia.
    + right. split; [discriminate|]. symmetry. exact (concat_fold l c "").
    + assert (G : forall l s, String.length (fold_left (fun s c => s ++ " and " ++ cond_name c) l s) = String.length s + total l).
      { induction l0 as [|d l0 IH]; intros s; cbn [fold_left total]; [lia|]. rewrite IH, !sapp_length. cbn [String.length]. lia. }
      rewrite G. lia.
Qed.
Lemma describes_fun : forall e s t, describes e s -> describes e t -> s = t.
Proof. intros e s t [[A ->]|[A ->]] [[B ->]|[B ->]]; congruence. Qed.

(** uniquecount leaves everything beyond the arrays alone *)
Lemma scan_frame : forall t u c m i, m <= i -> snd (uc_scan t u c m) i = c i.
Proof.
  induction m; intros i H; [reflexivity|]. cbn [uc_scan]. specialize (IHm i ltac:(lia)). destruct (uc_scan t u c m) as [b cnt]. cbn [snd] in *.
  destruct (Z.eqb t (u m)); cbn [snd]; auto. unfold Math2Model.upd. destruct (Nat.eqb_spec i m); [lia|auto].
Qed.
Lemma fold_frame : forall l u c k i, k + List.length l <= i ->
  let '(u', c', _) := fold_left (fun st x => uc_step x st) l (u, c, k) in u' i = u i /\ c' i = c i.
Proof.
  induction l as [|x l IH]; intros u c k i H; cbn [fold_left List.length] in *; [auto|].
  unfold uc_step at 2. pose proof (scan_frame x u c k i ltac:(lia)) as SF. destruct (uc_scan x u c k) as [b cnt]. cbn [snd] in SF.
  destruct b.
  - specialize (IH (Math2Model.upd u k x) (Math2Model.upd cnt k 1%Z) (S k) i ltac:(lia)).
    destruct (fold_left _ _ _) as [[u' c'] k']. destruct IH as [-> ->]. unfold Math2Model.upd. destruct (Nat.eqb_spec i k); [lia|auto].
  - specialize (IH u cnt k i ltac:(lia)). destruct (fold_left _ _ _) as [[u' c'] k']. destruct IH as [-> ->]. auto.
Qed.
Lemma uniquecount_frame : forall l u c, snd (uniquecount l u c) (List.length l) = c (List.length l).
Proof.
  intros l u c. unfold uniquecount. pose proof (fold_frame l (uc_clear (List.length l) u) (uc_clear (List.length l) c) 0 (List.length l) ltac:(lia)) as F.
  destruct (fold_left _ _ _) as [[u' c'] k']. cbn [snd]. destruct F as [_ ->]. unfold uc_clear. now rewrite Nat.ltb_irrefl.
Qed.

(** the loops, for arrays that start with [k] positive counts *)
Lemma cond_lines_spec : forall k fuel i (u c : nat -> Z), (forall j, i <= j < i + k -> (c j > 0)%Z) -> c (i + k) = 0%Z -> k < fuel ->
  exists f, cond_lines fuel i u c = Ok (map (fun j => LCond (c j) (f (u j))) (seq i k)) /\ forall e, describes e (f e).
Proof.
  assert (G : exists f, forall e, cond_text e = Ok (f e) /\ describes e (f e)).
  { exists (fun e => match cond_text e with Ok s => s | _ => "" end). intros e. destruct (cond_text_spec e) as (s & -> & D & _). auto. }
  destruct G as [f F]. intros k fuel i u c P Z K. exists f. split; [|intros; apply F].
  revert fuel i P Z K. induction k as [|k IH]; intros [|fuel] i P ZK K; try lia; cbn [cond_lines].
  - rewrite Nat.add_0_r in ZK. rewrite ZK. reflexivity.
  - destruct (Z.gtb_spec (c i) 0); [|specialize (P i ltac:(lia)); lia]. rewrite (proj1 (F (u i))). cbn [bind].
    rewrite (IH fuel (S i)); [reflexivity | intros; apply P; lia | rewrite <- ZK; f_equal; lia | lia].
Qed.
Lemma err_lines_spec : forall k fuel i (u c : nat -> Z), (forall j, i <= j < i + k -> (c j > 0)%Z) -> c (i + k) = 0%Z -> k < fuel ->
  err_lines fuel i u c = map (fun j => LErr (c j) (error_parse (u64 (u j)))) (filter (fun j => negb (u j =? 0)%Z) (seq i k)).
Proof.
  induction k as [|k IH]; intros [|fuel] i u c P ZK K; try lia; cbn [err_lines].
  - rewrite Nat.add_0_r in ZK. rewrite ZK. reflexivity.
  - destruct (Z.gtb_spec (c i) 0); [|specialize (P i ltac:(lia)); lia].
    rewrite (IH fuel (S i)); [ | intros; apply P; lia | rewrite <- ZK; f_equal; lia | lia].
    cbn [seq filter]. destruct (u i =? 0)%Z; reflexivity.
Qed.
Lemma occ_pos : forall v l, In v l -> (occ v l > 0)%Z.
Proof. intros v l I. unfold occ. apply (count_occ_In Z.eq_dec) in I. lia. Qed.
Lemma map_NoDup : forall k (u : nat -> Z), (forall i j, i < k -> j < k -> u i = u j -> i = j) -> NoDup (map u (seq 0 k)).
Proof.
  intros k u INJ. assert (G : forall l, NoDup l -> (forall i, In i l -> i < k) -> NoDup (map u l)).
  { induction l as [|a l IH]; intros ND B; cbn; constructor.
    - intros I. apply in_map_iff in I. destruct I as (b & E & I). inversion ND; subst. assert (b = a) by (apply INJ; auto; apply B; [now right|now left]). subst. auto.
    - inversion ND; subst. apply IH; auto. intros. apply B. now right. }
  apply G; [apply seq_NoDup|]. intros i I. apply in_seq in I. lia.
Qed.
Lemma filter_map : forall (u : nat -> Z) (p : Z -> bool) l, map u (filter (fun j => p (u j)) l) = filter p (map u l).
Proof. induction l as [|a l IH]; [reflexivity|]. cbn. destruct (p (u a)); cbn; now rewrite IH. Qed.
(** the lines are in order of first appearance; here only: one per value *)
Definition one_each (E : list Z) (P : Z -> Prop) : Prop := NoDup E /\ forall e, In e E <-> P e.

Lemma to_int_small : forall x, (-2147483648 <= x < 2147483648)%Z -> to_int x = x.
Proof.
  intros x H. unfold to_int. destruct (Z.ltb_spec x 0).
  - assert (E : (x mod 4294967296 = x + 4294967296)%Z) by (symmetry; apply Z.mod_unique with (-1)%Z; lia). rewrite E.
    destruct (Z.ltb_spec (x + 4294967296) 2147483648); lia.
  - rewrite Z.mod_small by lia. destruct (Z.ltb_spec x 2147483648); lia.
Qed.
Lemma summary_spec : forall ends errs u0 c0, List.length errs = List.length ends -> ends <> [] ->
  (forall e, In e (ends ++ errs)%list -> (-2147483648 <= e < 2147483648)%Z) ->
  exists E F f, marker_summary ends errs u0 c0 = Ok
     (map (fun e => LCond (occ e ends) (f e)) E ++ map (fun e => LErr (occ e errs) (error_parse (u64 e))) F
      ++ (if forallb (Z.eqb 0) errs then [LNone] else []))%list /\
   (forall e, describes e (f e)) /\
   one_each E (fun e => In e ends) /\ one_each F (fun e => In e errs /\ e <> 0%Z).
Proof.
  intros ends errs u0 c0 L NE B. unfold marker_summary.
  assert (M1 : map to_int ends = ends) by (rewrite <- (map_id ends) at 2; apply map_ext_in; intros a I; apply to_int_small, B, in_or_app; auto).
  assert (M2 : map to_int errs = errs) by (rewrite <- (map_id errs) at 2; apply map_ext_in; intros a I; apply to_int_small, B, in_or_app; auto).
  rewrite M1, M2.
  pose proof (uniquecount_spec ends u0 c0) as S1. destruct (uniquecount ends u0 c0) as [u c]. destruct S1 as (k & K & V & INJ & COV & ZZ).
  set (c1 := fun i => if i =? List.length ends then 0%Z else c i).
  destruct (cond_lines_spec k (S (List.length ends)) 0 u c1) as (f & EL & FD).
  { intros j Hj. unfold c1. destruct (Nat.eqb_spec j (List.length ends)); [lia|]. destruct (V j ltac:(lia)) as [I ->]. now apply occ_pos. }
  { cbn. unfold c1. destruct (Nat.eqb_spec k (List.length ends)); [auto|]. apply ZZ. lia. }
  { lia. }
  rewrite EL. cbn [bind].
  pose proof (uniquecount_frame errs u c1) as FR. pose proof (uniquecount_spec errs u c1) as S2. destruct (uniquecount errs u c1) as [u2 c2].
  cbn [snd] in FR. destruct S2 as (k2 & K2 & V2 & INJ2 & COV2 & ZZ2).
  assert (EZ : c2 k2 = 0%Z).
  { destruct (Nat.eq_dec k2 (List.length errs)) as [->|]; [|apply ZZ2; lia]. rewrite FR, L. unfold c1. now rewrite Nat.eqb_refl. }
  rewrite (err_lines_spec k2 (S (List.length ends)) 0 u2 c2); [ | intros j Hj; destruct (V2 j ltac:(lia)) as [I ->]; now apply occ_pos | exact EZ | lia].
  assert (K2P : 0 < k2).
  { destruct errs as [|x errs]; [destruct ends; [congruence|discriminate]|]. destruct (COV2 x (or_introl eq_refl)) as (i & Hi & _). lia. }
  exists (map u (seq 0 k)), (filter (fun e => negb (e =? 0)%Z) (map u2 (seq 0 k2))), f. split; [|split; [exact FD|split]].
  - f_equal. f_equal; [|f_equal].
    + rewrite map_map. apply map_ext_in. intros j Hj. apply in_seq in Hj. unfold c1. destruct (Nat.eqb_spec j (List.length ends)); [lia|]. destruct (V j ltac:(lia)) as [_ ->]. reflexivity.
    + rewrite <- (filter_map u2 (fun e => negb (e =? 0)%Z)), map_map. apply map_ext_in. intros j Hj. apply filter_In in Hj. destruct Hj as [Hj _]. apply in_seq in Hj.
      destruct (V2 j ltac:(lia)) as [_ ->]. reflexivity.
    + destruct (forallb (Z.eqb 0) errs) eqn:FA.
      * rewrite forallb_forall in FA. destruct (V2 0 K2P) as [I E0]. assert (U0 : u2 0 = 0%Z) by (apply FA in I; apply Z.eqb_eq in I; lia).
        rewrite U0 in *. rewrite E0. assert (OC : occ 0 errs = Z.of_nat (List.length ends)).
        { rewrite <- L. clear -FA. unfold occ. f_equal. induction errs as [|x errs IH]; [reflexivity|]. pose proof (FA x (or_introl eq_refl)) as Q. apply Z.eqb_eq in Q. subst x.
          cbn [count_occ List.length]. destruct (Z.eq_dec 0 0); [|lia]. f_equal. apply IH. intros. apply FA. now right. }
        rewrite OC, !Z.eqb_refl. reflexivity.
      * destruct (Z.eqb (c2 0) (Z.of_nat (List.length ends))) eqn:E1; [|reflexivity]. destruct (Z.eqb (u2 0) 0) eqn:E2; [|reflexivity]. exfalso.
        apply Z.eqb_eq in E1, E2. destruct (V2 0 K2P) as [_ E0]. rewrite E2, E1 in E0.
        enough (forallb (Z.eqb 0) errs = true) by congruence. apply forallb_forall. intros x I. apply Z.eqb_eq. rewrite <- L in E0. clear -E0 I.
        unfold occ in E0. apply Nat2Z.inj in E0. symmetry in E0. revert E0 I. induction errs as [|y errs IH]; intros E0 I; [destruct I|].
        cbn [count_occ List.length] in E0. destruct (Z.eq_dec y 0) as [->|N].
        { destruct I as [<-|I]; auto. }
        pose proof (count_occ_bound Z.eq_dec 0%Z errs). lia.
  - split; [now apply map_NoDup|]. intros e. rewrite in_map_iff. split.
    + intros (j & <- & Hj). apply in_seq in Hj. apply V. lia.
    + intros I. destruct (COV e I) as (j & Hj & <-). exists j. split; auto. apply in_seq. lia.
  - split; [apply NoDup_filter; now apply map_NoDup|]. intros e. rewrite filter_In, in_map_iff. split.
    + intros [(j & <- & Hj) N]. apply in_seq in Hj. split; [apply V2; lia|]. apply negb_true_iff, Z.eqb_neq in N. exact N.
    + intros [I N]. destruct (COV2 e I) as (j & Hj & <-). split; [|now apply negb_true_iff, Z.eqb_neq]. exists j. split; auto. apply in_seq. lia.
Qed.
(** the counts of one line per value add up *)
Lemma counts_total : forall E l, one_each E (fun e => In e l) -> fold_right Z.add 0%Z (map (fun e => occ e l) E) = Z.of_nat (List.length l).
Proof.
  intros E l [ND IN].
  pose proof (sum_occ l (List.length E) (fun i => nth i E 0%Z)) as S.
  rewrite <- S.
  - assert (G : forall (g : Z -> Z) E, sumZ (List.length E) (fun i => g (nth i E 0%Z)) = fold_right Z.add 0%Z (map g E)); [|symmetry; exact (G (fun e => occ e l) E)].
    intros g E0. rewrite <- (rev_involutive E0). generalize (rev E0). clear. induction l as [|x l IH]; [reflexivity|].
    cbn [rev]. rewrite map_app, fold_right_app, List.app_length. cbn [List.length map fold_right]. replace (List.length (rev l) + 1) with (S (List.length (rev l))) by lia. cbn [sumZ].
    rewrite (sumZ_ext _ _ (fun i => g (nth i (rev l) 0%Z))) by (intros i Hi; now rewrite app_nth1). rewrite IH.
    rewrite app_nth2, Nat.sub_diag by lia. cbn [nth]. generalize (map g (rev l)). induction l0 as [|y l0 IH0]; cbn [fold_right]; lia.
  - intros i j Hi Hj Q. apply (proj1 (NoDup_nth E 0%Z)); auto.
  - intros v I. apply IN in I. destruct (In_nth E v 0%Z I) as (i & Hi & Q). eauto.
Qed.
(** error flags raised by the code survive the conversion to int and are reported with their type, line and file *)
Lemma raised_reported : forall t line f, (0 <= line < 1024)%Z ->
  (-2147483648 <= error_raise t line f < 2147483648)%Z /\ error_raise t line f <> 0%Z /\
  error_parse (u64 (error_raise t line f)) = (type_code t, line, file_code f).
Proof.
  intros t line f H. pose proof (type_code_range t). pose proof (file_code_range f).
  assert (E : error_raise t line f = (type_code t + line * 256 + file_code f * 262144)%Z).
  { unfold error_raise. rewrite raise_code_flat by lia. lia. }
  pose proof (roundtrip t line f H) as RT. rewrite E in *. repeat split; try lia.
  unfold u64. rewrite Z.mod_small by lia. exact RT.
Qed.
(** without markers the last test looks at memory that was never allocated *)
Lemma summary_empty : forall u0 c0, marker_summary [] [] u0 c0 = Ok (if Z.eqb (u0 0) 0 then [LNone] else []).
Proof. intros. unfold marker_summary. cbn. destruct (Z.eqb (u0 0) 0); reflexivity. Qed.
