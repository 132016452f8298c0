From Coq Require Import Reals ZArith List String Bool Arith Lia Lra.
Import ListNotations.
From Verif Require Import HdfModel HinModel HinProofs HuseProofs NbiModel NbiProofs HnbiModel HnbiProofs MainModel MainProofs BbnModel.
Local Open Scope string_scope.
Local Open Scope nat_scope.

(** ** Specification *)
Fixpoint blast {A} (f : bopt -> option A) (l : list bopt) : option A :=
  match l with [] => None | o :: l => match blast f l with Some x => Some x | None => f o end end.
Definition nbi_arg (o : bopt) := match o with BNbi s => Some s | _ => None end.
Definition n_arg (o : bopt) := match o with BN s => Some s | _ => None end.
Definition t1_arg (o : bopt) := match o with BT1 s => Some s | _ => None end.
Definition t2_arg (o : bopt) := match o with BT2 s => Some s | _ => None end.
(** the arguments that ascot5_main has too *)
Definition commons (l : list bopt) : list opt := flat_map (fun o => match o with BCommon o => [o] | _ => [] end) l.
(** a registered argument *)
Definition known (o : bopt) : Prop :=
  match o with BCommon (OQid k _) => k = k_bfield \/ k = k_wall \/ k = k_plasma | BCommon OBad => False | _ => True end.
Definition bfits (o : bopt) : Prop := match o with BCommon o => fits o | BNbi s => String.length s < 256 | _ => True end.

Section args.
Variables (atoi : string -> Z) (atof : string -> R).
Lemma chosen_iff k : chosen k = true <-> k = k_bfield \/ k = k_wall \/ k = k_plasma.
Proof. destruct k; cbn; split; intros H; try discriminate; auto; destruct H as [H|[H|H]]; discriminate. Qed.
Lemma barg1_ok o b b' : barg1 atoi atof o b = Ok b' -> known o /\ bfits o /\ args atoi (commons [o]) (common b) = Ok (common b') /\
  bnbi b' = dflt (nbi_arg o) (bnbi b) (fun s => s) /\ bn b' = dflt (n_arg o) (bn b) atoi /\ bt1 b' = dflt (t1_arg o) (bt1 b) atof /\ bt2 b' = dflt (t2_arg o) (bt2 b) atof.
Proof.
  destruct o as [o|s|s|s|s]; cbn [barg1 known bfits commons flat_map app args nbi_arg n_arg t1_arg t2_arg dflt].
  - assert (G : bind (arg1 atoi o (common b)) (fun c => Ok (mkb c (bnbi b) (bn b) (bt1 b) (bt2 b))) = Ok b' -> o <> OBad /\ fits o /\
      bind (arg1 atoi o (common b)) (fun c => Ok c) = Ok (common b') /\ bnbi b' = bnbi b /\ bn b' = bn b /\ bt1 b' = bt1 b /\ bt2 b' = bt2 b).
    { destruct (arg1 atoi o (common b)) as [c| |] eqn:E; cbn [bind]; try discriminate. intros X. injection X as <-. cbn [common bnbi bn bt1 bt2].
      apply (arg1_ok atoi) in E. destruct E as (A & B & _). repeat split; auto. }
    destruct o; try (intros X; destruct (G X) as (A & B & C); repeat split; tauto).
    + destruct (chosen k) eqn:K; [|discriminate]. intros X. destruct (G X) as (A & B & C). apply chosen_iff in K. repeat split; try tauto.
  - destruct (store s) as [t| |] eqn:E; cbn [bind]; try discriminate. intros X. injection X as <-. apply store_ok in E as [L ->]. repeat split; auto.
  - intros X. injection X as <-. repeat split; auto.
  - intros X. injection X as <-. repeat split; auto.
  - intros X. injection X as <-. repeat split; auto.
Qed.
Lemma args_app l1 l2 c : args atoi (l1 ++ l2) c = bind (args atoi l1 c) (args atoi l2).
Proof. revert c. induction l1 as [|o l1 IH]; intros c; cbn [args app]; [reflexivity|]. destruct (arg1 atoi o c); cbn [bind]; auto. Qed.
Lemma bargs_ok l : forall b b', bargs atoi atof l b = Ok b' -> (forall o, In o l -> known o /\ bfits o) /\ args atoi (commons l) (common b) = Ok (common b') /\
  bnbi b' = dflt (blast nbi_arg l) (bnbi b) (fun s => s) /\ bn b' = dflt (blast n_arg l) (bn b) atoi /\ bt1 b' = dflt (blast t1_arg l) (bt1 b) atof /\ bt2 b' = dflt (blast t2_arg l) (bt2 b) atof.
Proof.
  induction l as [|o l IH]; intros b b' H; cbn [bargs] in H.
  - injection H as <-. split; [intros o []|]. repeat split; auto.
  - apply bind_ok in H. destruct H as (b1 & E1 & E2). apply barg1_ok in E1. apply IH in E2.
    destruct E1 as (K & F & A & A1 & A2 & A3 & A4), E2 as (G & B & B1 & B2 & B3 & B4).
    split; [intros o' [<-|I]; auto|]. split.
    + replace (commons (o :: l)) with (commons [o] ++ commons l)%list by (destruct o; reflexivity). rewrite args_app, A. exact B.
    + cbn [blast]. rewrite B1, B2, B3, B4, A1, A2, A3, A4. repeat split; apply dflt_dflt.
Qed.
Lemma barg1_fits o b : known o -> bfits o -> exists b', barg1 atoi atof o b = Ok b'.
Proof.
  destruct o as [o|s|s|s|s]; cbn [barg1 known bfits]; intros K F; eauto.
  - assert (G : o <> OBad) by (intros ->; exact K). destruct (arg1_fits atoi o (common b) G F) as [c E].
    destruct o; try (rewrite E; cbn [bind]; eauto; fail). apply chosen_iff in K. rewrite K, E. cbn [bind]. eauto.
  - unfold store. destruct (Nat.ltb_spec (String.length s) 256); [|lia]. cbn [bind]. eauto.
Qed.
Lemma bargs_fits l : forall b, (forall o, In o l -> known o /\ bfits o) -> exists b', bargs atoi atof l b = Ok b'.
Proof.
  induction l as [|o l IH]; intros b H; cbn [bargs]; [eauto|]. destruct (H o (or_introl eq_refl)) as [K F]. destruct (barg1_fits o b K F) as [b1 E]. rewrite E. cbn [bind]. apply IH. intros. apply H. now right.
Qed.

Theorem bread_ok l b : bbnbi_read_arguments atoi atof l = Ok b ->
  is_in (commons l) (hin (common b)) /\ is_out (commons l) (hout (common b)) /\
  msize (common b) = dflt (last_of size_arg (commons l)) 0%Z atoi /\ mrank (common b) = dflt (last_of rank_arg (commons l)) 0%Z atoi /\
  desc (common b) = dflt (last_of desc_arg (commons l)) "TAG" (fun s => s) /\
  (forall k, qid (common b) k = dflt (last_of (qid_arg k) (commons l)) "" (fun s => s)) /\
  bnbi b = dflt (blast nbi_arg l) "" (fun s => s) /\ bn b = dflt (blast n_arg l) 10000%Z atoi /\
  bt1 b = dflt (blast t1_arg l) 0%R atof /\ bt2 b = dflt (blast t2_arg l) 0%R atof.
Proof.
  unfold bbnbi_read_arguments. intros H. apply bind_ok in H. destruct H as (b1 & E1 & E2). apply bind_ok in E2. destruct E2 as (c & E2 & E3). injection E3 as <-.
  apply bargs_ok in E1. destruct E1 as (_ & A & A1 & A2 & A3 & A4). apply args_ok in A. destruct A as (_ & B1 & B2 & B3 & B4 & B5 & B6).
  destruct (file_names_spec (commons l) (common b1) B1 B2) as (i & o & II & IO & F). rewrite F in E2. destruct (_ && _); try discriminate. injection E2 as <-.
  cbn [common hin hout msize mrank desc qid bnbi bn bt1 bt2]. repeat split; auto.
Qed.
Theorem bread_accepts l : (exists b, bbnbi_read_arguments atoi atof l = Ok b) <->
  (forall o, In o l -> known o /\ bfits o) /\ (forall f, is_in (commons l) f \/ is_out (commons l) f -> String.length f < 256).
Proof.
  unfold bbnbi_read_arguments. split.
  - intros [b H]. apply bind_ok in H. destruct H as (b1 & E1 & E2). apply bind_ok in E2. destruct E2 as (c & E2 & _).
    apply bargs_ok in E1. destruct E1 as (G & A & _). apply args_ok in A. destruct A as (_ & B1 & B2 & _). split; [exact G|].
    destruct (file_names_spec (commons l) (common b1) B1 B2) as (i & o & II & IO & F). rewrite F in E2.
    destruct (Nat.ltb_spec (String.length i) 256), (Nat.ltb_spec (String.length o) 256); cbn [andb] in E2; try discriminate.
    intros f [Q|Q]; [rewrite (is_in_fun _ _ _ Q II)|rewrite (is_out_fun _ _ _ Q IO)]; auto.
  - intros [G L]. destruct (bargs_fits l bdefaults G) as [b1 E1]. pose proof E1 as E0. rewrite E1. cbn [bind].
    apply bargs_ok in E0. destruct E0 as (_ & A & _). apply args_ok in A. destruct A as (_ & B1 & B2 & _).
    destruct (file_names_spec (commons l) (common b1) B1 B2) as (i & o & II & IO & F). rewrite F.
    destruct (Nat.ltb_spec (String.length i) 256), (Nat.ltb_spec (String.length o) 256); cbn [andb bind]; eauto;
      [pose proof (L o (or_intror IO))|pose proof (L i (or_introl II))|pose proof (L i (or_introl II))]; lia.
Qed.
(** neutral, atomic, options and the other inputs cannot be chosen *)
Theorem bread_no_choice k s : k <> k_bfield -> k <> k_wall -> k <> k_plasma -> bbnbi_read_arguments atoi atof [BCommon (OQid k s)] = Rejected.
Proof. intros A B C. unfold bbnbi_read_arguments. cbn [bargs barg1]. destruct k; cbn [chosen bind]; try reflexivity; congruence. Qed.
End args.

(** ** From the command line and the file to the number of markers of each injector *)
Definition total_power (c : nat -> content) (n : nat) : R := AtomModel.sumR (map (fun i => reald (c i) "power") (seq 0 n)).
Lemma powers_eq (l : list (Z * injector)) : forall (c : nat -> content), (forall i id x, nth_error l i = Some (id, x) -> injector_of (c i) id x) ->
  map (fun x => power (snd x)) l = map (fun i => reald (c i) "power") (seq 0 (List.length l)).
Proof.
  induction l as [|[id x] l IH]; intros c H; [reflexivity|]. cbn [map List.length seq snd]. f_equal.
  - apply (H 0 id x eq_refl).
  - rewrite <- seq_shift, map_map. apply (IH (fun i => c (S i))). intros i id' x' E. apply (H (S i) id' x' E).
Qed.
Lemma sumR_pos : forall l : list R, Forall (fun p => (0 <= p)%R) l -> Exists (fun p => (0 < p)%R) l -> (0 < AtomModel.sumR l)%R.
Proof.
  unfold AtomModel.sumR. intros l F E. assert (N : forall l : list R, Forall (fun p => (0 <= p)%R) l -> (0 <= fold_right Rplus 0 l)%R)
    by (clear; intros l F; induction F; cbn [fold_right]; lra).
  induction E as [p l P|p l E IH]; inversion F; subst; cbn [fold_right].
  - specialize (N l H2). lra.
  - specialize (IH H2). lra.
Qed.
Theorem bbnbi_markers atoi atof f nq n c m l b : (Z.of_nat n <= 2147483647)%Z -> nbi_complete f nq n c -> bbnbi_read_arguments atoi atof l = Ok b ->
  (0 <= dflt (blast n_arg l) 10000 atoi)%Z -> (forall i, i < n -> (0 <= reald (c i) "power")%R) -> (exists i, i < n /\ (0 < reald (c i) "power")%R) ->
  let powers := map (fun i => reald (c i) "power") (seq 0 n) in let asked := dflt (blast n_arg l) 10000%Z atoi in
  exists ns, bbnbi_shares f nq m b = Ok (Some ns) /\ List.length ns = n /\ sumZ ns = asked /\ fair (total_power c n) asked powers ns /\ Forall (fun k => (0 <= k)%Z) ns /\ marker_ids 0 ns = map Z.of_nat (seq 1 (Z.to_nat asked)).
Proof.
  intros N C B P F (i & Hi & Ei) powers asked. destruct (nbi_read f nq n c m N C) as (li & RD & L & H). unfold bbnbi_shares. rewrite RD. cbn [bind].
  apply bread_ok in B. destruct B as (_ & _ & _ & _ & _ & _ & _ & B & _). rewrite B. rewrite (powers_eq li c H), L. fold powers asked. fold asked in P.
  assert (FF : Forall (fun p => (0 <= p)%R) powers) by (apply Forall_forall; intros p Q; apply in_map_iff in Q; destruct Q as (j & <- & Q); apply in_seq in Q; apply F; lia).
  assert (T : (0 < AtomModel.sumR powers)%R) by (apply sumR_pos; auto; apply Exists_exists; exists (reald (c i) "power"); split; auto; apply in_map_iff; exists i; split; auto; apply in_seq; lia).
  destruct (shares_fair asked powers P FF T) as (ns & A & A1 & A2 & _). destruct (beam_ids asked powers P FF T) as (ns' & A' & A3 & _). rewrite A in A'. injection A' as <-.
  assert (NE : powers <> []) by (intros E; rewrite E in T; unfold AtomModel.sumR in T; cbn in T; lra).
  destruct (shares_exact asked powers ns NE A) as [A4 A5]. exists ns. rewrite A. split; [reflexivity|]. unfold powers at 1 in A5. rewrite map_length, seq_length in A5. repeat split; auto.
Qed.
(** without a stored power there is nothing to divide: the count of markers is a division by zero *)
Theorem bbnbi_no_power atoi atof f nq n c m l b : (Z.of_nat n <= 2147483647)%Z -> nbi_complete f nq n c -> bbnbi_read_arguments atoi atof l = Ok b ->
  n <> 0 -> (forall i, i < n -> reald (c i) "power" = 0%R) -> bbnbi_shares f nq m b = Ok None.
Proof.
  intros N C B NZ F. destruct (nbi_read f nq n c m N C) as (li & RD & L & H). unfold bbnbi_shares. rewrite RD. cbn [bind]. rewrite (powers_eq li c H), L. f_equal.
  unfold shares. rewrite foldl_sum.
  assert (G : AtomModel.sumR (map (fun i => reald (c i) "power") (seq 0 n)) = 0%R).
  { assert (forall q, (forall x, In x q -> x = 0%R) -> AtomModel.sumR q = 0%R) as Q.
    { unfold AtomModel.sumR. induction q as [|a q IH]; intros K; cbn [fold_right]; [reflexivity|]. rewrite (K a (or_introl eq_refl)), IH; [lra|]. intros; apply K; now right. }
    apply Q. intros x I. apply in_map_iff in I. destruct I as (j & <- & I). apply in_seq in I. apply F. lia. }
  rewrite G. destruct (map _ _) as [|a q] eqn:E; [destruct n; [congruence|discriminate E]|]. destruct (Req_EM_T (0 + 0) 0); [reflexivity|lra].
Qed.
