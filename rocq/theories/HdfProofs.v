From Coq Require Import Reals ZArith List String Ascii Bool Arith Lia.
Import ListNotations.
From Verif Require Import MainModel MainProofs HdfModel.
Local Open Scope string_scope.
Local Open Scope nat_scope.

(** ** Specifications *)
Fixpoint has (a : ascii) (s : string) : Prop := match s with EmptyString => False | String b s => a = b \/ has a s end.
Definition no (a : ascii) (s : string) : Prop := ~ has a s.
Definition plain (s : string) : Prop := no "/" s.
(** the number a string of decimal digits stands for *)
Fixpoint decval (acc : Z) (s : string) : Z :=
  match s with EmptyString => acc | String a s => decval (10 * acc + (Z.of_nat (nat_of_ascii a) - 48))%Z s end.
Fixpoint alldigits (s : string) : Prop :=
  match s with EmptyString => True | String a s => 48 <= nat_of_ascii a <= 57 /\ alldigits s end.
(** the QID an input is read with: the user's, or else the one marked active in the file *)
Definition chosen (f : h5) (user : inp -> string) (k : inp) (q : string) : Prop :=
  (user k <> "" /\ length (user k) <= 10 /\ q = user k) \/
  (user k = "" /\ exists a, att f (comps (gname k)) "active" = Some a /\ 10 <= length a <= 11 /\ q = substring 0 10 a).
Definition toolong (user : inp -> string) (k : inp) : Prop := 10 < length (user k).
Definition badactive (f : h5) (user : inp -> string) (k : inp) : Prop :=
  user k = "" /\ exists a, att f (comps (gname k)) "active" = Some a /\ ~ 10 <= length a <= 11.

(** ** Strings and paths *)
Lemma sapp_nil s : s ++ "" = s. Proof. induction s; cbn; congruence. Qed.
Lemma sapp_assoc a b c : (a ++ b) ++ c = a ++ (b ++ c). Proof. induction a; cbn; congruence. Qed.
Lemma sapp_inj_l a b c : a ++ b = a ++ c -> b = c.
Proof. induction a; cbn; [auto|]. intros E; inversion E; auto. Qed.
Ltac sassoc := repeat (progress (cbn [append]; rewrite ?sapp_assoc, ?sapp_nil)); reflexivity.
Lemma no_cons a b s : no a (String b s) <-> a <> b /\ no a s.
Proof. unfold no; cbn; tauto. Qed.
Lemma has_app a s t : has a (s ++ t) <-> has a s \/ has a t.
Proof. induction s as [|b s IH]; cbn; [tauto|]. rewrite IH. tauto. Qed.
Lemma no_app a s t : no a (s ++ t) <-> no a s /\ no a t.
Proof. unfold no. rewrite has_app. tauto. Qed.
Lemma comps_app a : forall c s, plain a -> comps_from c (a ++ s) = comps_from (c ++ a) s.
Proof.
  induction a as [|b a IH]; intros c s P; cbn.
  - now rewrite sapp_nil.
  - apply no_cons in P as [N P]. destruct (Ascii.eqb_spec b "/"); [congruence|].
    rewrite IH by exact P. f_equal. rewrite sapp_assoc. reflexivity.
Qed.
Lemma comps_slash c s : comps_from c (String "/" s) = (flush c ++ comps_from "" s)%list.
Proof. reflexivity. Qed.
Lemma comps_end c a : plain a -> comps_from c a = flush (c ++ a).
Proof. intros P. rewrite <- (sapp_nil a) at 1. now rewrite comps_app. Qed.
Lemma flush_ne c : c <> "" -> flush c = [c].
Proof. unfold flush. destruct (String.eqb_spec c ""); tauto. Qed.
Lemma sapp_ne_l a b : a <> "" -> a ++ b <> "". Proof. destruct a; cbn; congruence. Qed.
Lemma sapp_ne_r a b : b <> "" -> a ++ b <> "". Proof. destruct a; cbn; congruence. Qed.

Lemma no_plain a s : plain (String a s) -> a <> "/"%char.
Proof. intros P. apply no_cons in P. intros ->. now apply P. Qed.
Lemma prefix_self p s : prefix p (p ++ s) = true.
Proof. induction p as [|a p IH]; [destruct s; reflexivity|]. cbn. destruct (ascii_dec a a); tauto. Qed.
Lemma prefix_head a p b s : a <> b -> prefix (String a p) (String b s) = false.
Proof. intros N. cbn. destruct (ascii_dec a b); tauto. Qed.
Lemma index_unfold p b s : index 0 p (String b s) = if prefix p (String b s) then Some 0 else match index 0 p s with Some n => Some (S n) | None => None end.
Proof. reflexivity. Qed.
Lemma index_X pre post : no "X" pre -> index 0 XXX (pre ++ XXX ++ post) = Some (length pre).
Proof.
  induction pre as [|b pre IH]; intros N.
  - cbn [append length]. unfold XXX at 2. change ("XXXXXXXXXX" ++ post) with (String "X" ("XXXXXXXXX" ++ post)).
    rewrite index_unfold. change (String "X" ("XXXXXXXXX" ++ post)) with (XXX ++ post). now rewrite prefix_self.
  - apply no_cons in N as [Nb N]. change (String b pre ++ XXX ++ post) with (String b (pre ++ XXX ++ post)).
    rewrite index_unfold. unfold XXX at 1. rewrite prefix_head by exact Nb. rewrite IH by exact N. reflexivity.
Qed.
Lemma sub_0 a b : substring 0 (length a) (a ++ b) = a. Proof. now apply substring_app_l. Qed.
Lemma sub_all a : substring 0 (length a) a = a.
Proof. rewrite <- (sapp_nil a) at 2. apply sub_0. Qed.
Lemma sub_tail a b : substring (length a) (length (a ++ b) - length a) (a ++ b) = b.
Proof. rewrite sapp_length. replace (length a + length b - length a) with (length b) by lia. now apply substring_app_r. Qed.
Lemma sub_length n : forall s, n <= length s -> length (substring 0 n s) = n.
Proof. induction n as [|n IH]; intros [|a s] L; cbn in *; try lia; auto. rewrite IH; lia. Qed.
Theorem gen_path_ten pre post qid : no "X" pre -> length qid = 10 -> gen_path (pre ++ XXX ++ post) qid = Some (pre ++ qid ++ post).
Proof.
  intros N L. unfold gen_path. rewrite index_X by exact N. rewrite L. cbn [Nat.ltb Nat.leb]. f_equal.
  rewrite sub_0. f_equal. f_equal; [rewrite <- L; apply sub_all|].
  rewrite <- sapp_assoc. replace (length pre + 10) with (length (pre ++ XXX)) by (rewrite sapp_length; reflexivity). apply sub_tail.
Qed.
Theorem gen_path_short pre post qid : no "X" pre -> length qid < 10 -> gen_path (pre ++ XXX ++ post) qid = Some (pre ++ qid).
Proof.
  intros N L. unfold gen_path. rewrite index_X by exact N. apply Nat.ltb_lt in L. rewrite L. f_equal. now rewrite sub_0.
Qed.
Theorem gen_path_long pre post qid : no "X" pre -> 10 <= length qid -> gen_path (pre ++ XXX ++ post) qid = gen_path (pre ++ XXX ++ post) (substring 0 10 qid).
Proof.
  intros N L. unfold gen_path. rewrite index_X by exact N.
  assert (S : length (substring 0 10 qid) = 10) by (now apply sub_length).
  rewrite S. destruct (Nat.ltb_spec (length qid) 10); [lia|]. cbn [Nat.ltb Nat.leb]. do 3 f_equal.
  assert (G : forall t, length t = 10 -> substring 0 10 t = t) by (intros t Lt; rewrite <- Lt; apply sub_all).
  now rewrite (G _ S).
Qed.

(** where a dataset "/group/type_XXXXXXXXXX/name" is looked up *)
Definition tmpl (g t name : string) : string := ("/" ++ g ++ "/" ++ t) ++ XXX ++ ("/" ++ name).
Definition gtmpl (g t : string) : string := ("/" ++ g ++ "/" ++ t) ++ XXX ++ "".
Lemma comps_two g u : plain g -> plain u -> g <> "" -> u <> "" -> comps ("/" ++ g ++ "/" ++ u) = [g; u].
Proof.
  intros Pg Pu Ng Nu. unfold comps. cbn [append]. rewrite comps_slash. change (flush "") with (@nil string). cbn [List.app].
  rewrite comps_app by exact Pg. cbn [append]. rewrite comps_slash, flush_ne by exact Ng. rewrite comps_end by exact Pu.
  cbn [append]. rewrite flush_ne by exact Nu. reflexivity.
Qed.
Lemma comps_three g u n : plain g -> plain u -> plain n -> g <> "" -> u <> "" -> n <> "" -> comps ("/" ++ g ++ "/" ++ u ++ "/" ++ n) = [g; u; n].
Proof.
  intros Pg Pu Pn Ng Nu Nn. unfold comps. cbn [append]. rewrite comps_slash. change (flush "") with (@nil string). cbn [List.app].
  rewrite comps_app by exact Pg. cbn [append]. rewrite comps_slash, flush_ne by exact Ng.
  rewrite comps_app by exact Pu. cbn [append]. rewrite comps_slash, flush_ne by exact Nu. rewrite comps_end by exact Pn.
  cbn [append]. rewrite flush_ne by exact Nn. reflexivity.
Qed.
Section address.
Variables g t name : string.
Hypothesis Pg : plain g. Hypothesis Pt : plain t. Hypothesis Pn : plain name.
Hypothesis Ng : g <> "". Hypothesis Nt : t <> "". Hypothesis Nn : name <> "".
Hypothesis Xg : no "X" g. Hypothesis Xt : no "X" t.
Lemma pre_noX : no "X" ("/" ++ g ++ "/" ++ t).
Proof. cbn [append]. apply no_cons; split; [discriminate|]. apply no_app; split; [exact Xg|]. apply no_cons; split; [discriminate|exact Xt]. Qed.
Theorem lookup_address f qid : length qid = 10 -> plain qid -> lookup f (tmpl g t name) qid = dst f [g; t ++ qid; name].
Proof.
  intros L P. unfold lookup, tmpl. rewrite gen_path_ten by (try exact L; apply pre_noX).
  replace (("/" ++ g ++ "/" ++ t) ++ qid ++ "/" ++ name) with ("/" ++ g ++ "/" ++ (t ++ qid) ++ "/" ++ name)
    by sassoc.
  rewrite comps_three; auto; [now apply no_app|now apply sapp_ne_l].
Qed.
Theorem found_address f qid : length qid = 10 -> plain qid -> found_qid f (gtmpl g t) qid = grp f [g; t ++ qid] || is_some (dst f [g; t ++ qid]).
Proof.
  intros L P. unfold found_qid, gtmpl. rewrite gen_path_ten by (try exact L; apply pre_noX). unfold found.
  replace (("/" ++ g ++ "/" ++ t) ++ qid ++ "") with ("/" ++ g ++ "/" ++ (t ++ qid))
    by sassoc.
  rewrite comps_two; auto; [now apply no_app|now apply sapp_ne_l].
Qed.
Theorem lookup_short f qid : length qid < 10 -> plain qid -> lookup f (tmpl g t name) qid = dst f [g; t ++ qid].
Proof.
  intros L P. unfold lookup, tmpl. rewrite gen_path_short by (try exact L; apply pre_noX).
  replace (("/" ++ g ++ "/" ++ t) ++ qid) with ("/" ++ g ++ "/" ++ (t ++ qid))
    by sassoc.
  rewrite comps_two; auto; [now apply no_app|now apply sapp_ne_l].
Qed.
End address.

(** ** Generated QIDs *)
Lemma ascii_digit d : (0 <= d <= 9)%Z -> Z.of_nat (nat_of_ascii (digit d)) = (48 + d)%Z.
Proof. intros H. unfold digit. rewrite nat_ascii_embedding by lia. lia. Qed.
Lemma digits_length n : forall q acc, length (digits n q acc) = n + length acc.
Proof. induction n as [|n IH]; intros; cbn [digits]; [reflexivity|]. rewrite IH. cbn [length]. lia. Qed.
Lemma digits_all n : forall q acc, alldigits acc -> alldigits (digits n q acc).
Proof.
  induction n as [|n IH]; intros q acc A; cbn [digits]; [exact A|]. apply IH. cbn [alldigits]. split; [|exact A].
  assert (H := Z.mod_pos_bound q 10 eq_refl). assert (E := ascii_digit (q mod 10)). lia.
Qed.
Lemma decval_split s : forall a, decval a s = (a * 10 ^ Z.of_nat (length s) + decval 0 s)%Z.
Proof.
  induction s as [|c s IH]; intros a; [cbn; lia|].
  change (decval a (String c s)) with (decval (10 * a + (Z.of_nat (nat_of_ascii c) - 48))%Z s).
  change (decval 0 (String c s)) with (decval (10 * 0 + (Z.of_nat (nat_of_ascii c) - 48))%Z s).
  rewrite (IH (10 * a + _)%Z), (IH (10 * 0 + _)%Z).
  change (length (String c s)) with (S (length s)). rewrite Nat2Z.inj_succ, Z.pow_succ_r by lia. ring.
Qed.
Lemma digits_val n : forall q acc, (0 <= q < 10 ^ Z.of_nat n)%Z -> decval 0 (digits n q acc) = decval q acc.
Proof.
  induction n as [|n IH]; intros q acc B.
  - cbn [digits]. cbn in B. replace q with 0%Z by lia. reflexivity.
  - cbn [digits]. rewrite Nat2Z.inj_succ, Z.pow_succ_r in B by lia.
    rewrite IH by (split; [apply Z.div_pos; lia|apply Z.div_lt_upper_bound; lia]).
    change (decval (q / 10) (String (digit (q mod 10)) acc)) with (decval (10 * (q / 10) + (Z.of_nat (nat_of_ascii (digit (q mod 10))) - 48))%Z acc).
    assert (H := Z.mod_pos_bound q 10 eq_refl). rewrite ascii_digit by lia. f_equal.
    rewrite (Z.div_mod q 10) at 3 by lia. lia.
Qed.
Lemma gen_step mrand k : (0 <= mrand k)%Z -> forall d i fuel, i + d = k -> (forall j, i <= j < k -> (mrand j < 0)%Z) -> d < fuel -> generate_qid mrand i fuel = Some (fmt10 (mrand k)).
Proof.
  intros P. induction d as [|d IH]; intros i fuel E N F; (destruct fuel as [|fuel]; [lia|]); cbn [generate_qid].
  - replace i with k by lia. destruct (Z.ltb_spec (mrand k) 0); [lia|reflexivity].
  - destruct (Z.ltb_spec (mrand i) 0) as [_|H]; [|specialize (N i); lia].
    apply IH; [lia| |lia]. intros j J. apply N. lia.
Qed.
Theorem generate_qid_spec mrand k fuel : (forall i, (- 2 ^ 31 <= mrand i < 2 ^ 31)%Z) -> (forall j, j < k -> (mrand j < 0)%Z) -> (0 <= mrand k)%Z -> k < fuel ->
  exists s, generate_qid mrand 0 fuel = Some s /\ length s = 10 /\ alldigits s /\ decval 0 s = mrand k /\ (decval 0 s < 2 ^ 31)%Z.
Proof.
  intros Bd N P F. exists (fmt10 (mrand k)).
  rewrite (gen_step mrand k P k 0 fuel) by (try lia; intros j J; apply N; lia).
  assert (V : decval 0 (fmt10 (mrand k)) = mrand k).
  { unfold fmt10. rewrite digits_val; [reflexivity|]. specialize (Bd k). change (10 ^ Z.of_nat 10)%Z with 10000000000%Z. lia. }
  split; [reflexivity|]. split; [unfold fmt10; now rewrite digits_length|]. split; [apply digits_all; exact I|].
  split; [exact V|]. rewrite V. apply Bd.
Qed.
Theorem generate_qid_none mrand fuel : forall i, (forall j, (mrand j < 0)%Z) -> generate_qid mrand i fuel = None.
Proof. induction fuel as [|n IH]; intros i N; cbn [generate_qid]; [reflexivity|]. destruct (Z.ltb_spec (mrand i) 0) as [_|H]; [now apply IH|]. specialize (N i). lia. Qed.
Lemma alldigits_plain s : alldigits s -> plain s.
Proof.
  induction s as [|a s IH]; [intros _ H; exact H|]. intros [D A] [E|H]; [|now apply IH].
  subst a. cbn in D. lia.
Qed.

(** ** Reading the inputs *)
Lemma select_spec f user k q : select_qid f (gname k) (user k) = Ok q <-> chosen f user k q.
Proof.
  unfold select_qid, chosen, get_active_qid. destruct (String.eqb_spec (user k) "") as [E|E].
  - destruct (att f (comps (gname k)) "active") as [a|] eqn:A.
    + destruct (Nat.ltb_spec (length a) 10); cbn [orb].
      * split; [discriminate|]. intros [(H1 & _)|(_ & b & B & C & _)]; [tauto|]. injection B as <-. lia.
      * destruct (Nat.ltb_spec 11 (length a)).
        { split; [discriminate|]. intros [(H1 & _)|(_ & b & B & C & _)]; [tauto|]. injection B as <-. lia. }
        split.
        { intros H1. injection H1 as <-. right. split; [exact E|]. exists a. repeat split; auto; lia. }
        { intros [(H1 & _)|(_ & b & B & C & ->)]; [tauto|]. injection B as <-. reflexivity. }
    + split; [discriminate|]. intros [(H1 & _)|(_ & b & B & _)]; [tauto|discriminate].
  - destruct (Nat.ltb_spec (length (user k)) 11).
    + split; [intros H1; injection H1 as <-; left; repeat split; auto; lia|]. intros [(_ & _ & ->)|(H1 & _)]; [reflexivity|tauto].
    + split; [discriminate|]. intros [(_ & H1 & _)|(H1 & _)]; [lia|tauto].
Qed.
Lemma select_ub f user k : select_qid f (gname k) (user k) = Overflow <-> toolong user k \/ badactive f user k.
Proof.
  unfold select_qid, toolong, badactive, get_active_qid. destruct (String.eqb_spec (user k) "") as [E|E].
  - rewrite E. cbn [length]. destruct (att f (comps (gname k)) "active") as [a|] eqn:A.
    + destruct (Nat.ltb_spec (length a) 10); cbn [orb].
      * split; [intros _; right; split; auto; exists a; split; auto; lia|reflexivity].
      * destruct (Nat.ltb_spec 11 (length a)).
        { split; [intros _; right; split; auto; exists a; split; auto; lia|reflexivity]. }
        split; [discriminate|]. intros [H1|(_ & b & B & C)]; [lia|]. injection B as <-. lia.
    + split; [discriminate|]. intros [H1|(_ & b & B & C)]; [lia|discriminate].
  - destruct (Nat.ltb_spec (length (user k)) 11).
    + split; [discriminate|]. intros [H1|(H1 & _)]; [lia|tauto].
    + split; [intros _; left; lia|reflexivity].
Qed.
Lemma chosen_unique f user k q q' : chosen f user k q -> chosen f user k q' -> q = q'.
Proof. intros A B. apply select_spec in A, B. congruence. Qed.

Section read.
Variables (f : h5) (reader : inp -> string -> bool) (mask : Z) (user : inp -> string).
Definition readable (k : inp) (q : string) : Prop := found f (gname k) = true /\ chosen f user k q /\ reader k q = true.
(** slots of the inputs read so far hold the QID used, all others what the user gave *)
Definition slots_ok (s : rstate) : Prop :=
  (forall k q, In (k, q) (inited s) -> slots s k = q) /\ (forall k, ~ In k (map fst (inited s)) -> slots s k = user k).
Lemma stop s : slots_ok s -> (forall k q, In (k, q) (inited s) -> readable k q) ->
  (forall k q, In (k, q) (inited s) -> readable k q /\ slots s k = q) /\ (forall k, ~ In k (map fst (inited s)) -> slots s k = user k).
Proof. intros [A B] RD. split; [intros; split; [now apply RD|now apply A]|exact B]. Qed.
Lemma read_list_spec l : forall s, NoDup (map fst (inited s) ++ l)%list -> slots_ok s ->
  (forall k q, In (k, q) (inited s) -> readable k q) ->
  let (st, s') := read_list f reader mask l s in
  exists pre rest more, filter (wanted mask) l = (pre ++ rest)%list /\ inited s' = (inited s ++ more)%list /\ map fst more = pre /\
    (forall k q, In (k, q) (inited s') -> readable k q /\ slots s' k = q) /\
    (forall k, ~ In k (map fst (inited s')) -> hd_error rest <> Some k -> slots s' k = user k) /\
    match st with
    | Done => rest = []
    | Failed => exists k r, rest = k :: r /\ forall q, ~ readable k q
    | UB => exists k r, rest = k :: r /\ found f (gname k) = true /\ (toolong user k \/ badactive f user k)
    end.
Proof.
  induction l as [|k l IH]; intros s ND SO RD.
  - cbn [read_list]. destruct (stop s SO RD) as [H1 H2]. exists [], [], [].
    split; [reflexivity|]. split; [now rewrite app_nil_r|]. split; [reflexivity|]. split; [exact H1|]. split; [intros; now apply H2|reflexivity].
  - cbn [read_list]. assert (Nk : ~ In k (map fst (inited s))).
    { apply NoDup_remove_2 in ND. intros H. apply ND. apply in_or_app. now left. }
    destruct (wanted mask k) eqn:W; cbn [negb].
    2:{ specialize (IH s). destruct (read_list f reader mask l s) as [st s']. cbn [filter]. rewrite W. apply IH; auto. now apply NoDup_remove_1 in ND. }
    assert (FE : filter (wanted mask) (k :: l) = k :: filter (wanted mask) l) by (cbn [filter]; now rewrite W).
    assert (U : slots s k = user k) by now apply SO. rewrite U. destruct (stop s SO RD) as [H1 H2].
    destruct (found f (gname k)) eqn:F; cbn [negb].
    2:{ exists [], (k :: filter (wanted mask) l), [].
        split; [exact FE|]. split; [now rewrite app_nil_r|]. split; [reflexivity|]. split; [exact H1|]. split; [intros; now apply H2|].
        exists k, (filter (wanted mask) l). split; auto. intros q (Q & _). congruence. }
    destruct (select_qid f (gname k) (user k)) as [q| |] eqn:Sel.
    + assert (C : chosen f user k q) by now apply select_spec.
      destruct (reader k q) eqn:Rd.
      * set (s1 := mkr (setslot (slots s) k q) (inited s ++ [(k, q)])%list).
        assert (ND1 : NoDup (map fst (inited s1) ++ l)%list) by (subst s1; cbn [inited]; rewrite map_app, <- app_assoc; exact ND).
        assert (SO1 : slots_ok s1).
        { split; subst s1; cbn [inited slots]; intros k'.
          - intros q' H. unfold setslot. apply in_app_or in H as [H|[H|[]]].
            + destruct (inp_dec k' k) as [->|]; [exfalso; apply Nk; now apply (in_map fst) in H|]. now apply SO.
            + injection H as <- <-. destruct (inp_dec k k); tauto.
          - intros H. rewrite map_app in H. unfold setslot. destruct (inp_dec k' k) as [->|].
            + exfalso. apply H. apply in_or_app. right. now left.
            + apply SO. intros H'. apply H. apply in_or_app. now left. }
        assert (RD1 : forall k' q', In (k', q') (inited s1) -> readable k' q').
        { subst s1; cbn [inited]. intros k' q' H. apply in_app_or in H as [H|[H|[]]]; [now apply RD|]. injection H as <- <-. split; [exact F|split; [exact C|exact Rd]]. }
        specialize (IH s1 ND1 SO1 RD1). cbn [slots inited] in IH |- *. fold s1. destruct (read_list f reader mask l s1) as [st s'].
        destruct IH as (pre & rest & more & E1 & E2 & E3 & E4 & E5 & E6).
        exists (k :: pre), rest, ((k, q) :: more). rewrite FE, E1. subst s1. cbn [inited] in E2.
        split; [reflexivity|]. split; [rewrite E2, <- app_assoc; reflexivity|]. split; [cbn; now rewrite E3|]. split; [exact E4|]. split; [exact E5|exact E6].
      * exists [], (k :: filter (wanted mask) l), []. cbn [slots inited].
        split; [exact FE|]. split; [now rewrite app_nil_r|]. split; [reflexivity|]. split; [|split].
        -- intros k' q' H. split; [now apply RD|]. unfold setslot. destruct (inp_dec k' k) as [->|]; [exfalso; apply Nk; now apply (in_map fst) in H|]. now apply SO.
        -- intros k' H H'. unfold setslot. destruct (inp_dec k' k) as [->|]; [cbn in H'; congruence|]. now apply SO.
        -- exists k, (filter (wanted mask) l). split; auto. intros q' (_ & C' & R'). assert (q' = q) by (eapply chosen_unique; eauto). congruence.
    + exists [], (k :: filter (wanted mask) l), [].
      split; [exact FE|]. split; [now rewrite app_nil_r|]. split; [reflexivity|]. split; [exact H1|]. split; [intros; now apply H2|].
      exists k, (filter (wanted mask) l). split; auto. intros q (_ & C & _). apply select_spec in C. congruence.
    + exists [], (k :: filter (wanted mask) l), [].
      split; [exact FE|]. split; [now rewrite app_nil_r|]. split; [reflexivity|]. split; [exact H1|]. split; [intros; now apply H2|].
      exists k, (filter (wanted mask) l). split; auto. split; auto. now apply select_ub.
Qed.
Lemma inputs_nodup : NoDup inputs.
Proof. unfold inputs. repeat constructor; cbn; intuition discriminate. Qed.
Lemma in_inputs k : In k inputs. Proof. destruct k; cbn; tauto. Qed.

Theorem read_input_prefix : let (st, s) := read_input f reader mask user in
  exists pre rest, filter (wanted mask) inputs = (pre ++ rest)%list /\ map fst (inited s) = pre /\
    (forall k q, In (k, q) (inited s) -> readable k q /\ slots s k = q) /\
    (forall k, ~ In k pre -> hd_error rest <> Some k -> slots s k = user k) /\
    match st with
    | Done => rest = []
    | Failed => exists k r, rest = k :: r /\ forall q, ~ readable k q
    | UB => exists k r, rest = k :: r /\ found f (gname k) = true /\ (toolong user k \/ badactive f user k)
    end.
Proof.
  unfold read_input. assert (H := read_list_spec inputs (mkr user [])). cbn [inited slots map List.app] in H.
  specialize (H inputs_nodup). destruct (read_list f reader mask inputs (mkr user [])) as [st s].
  destruct H as (pre & rest & more & E1 & E2 & E3 & E4 & E5 & E6); [split; [intros ? ? []|intros; reflexivity]|intros ? ? []|].
  cbn [List.app] in E2. subst more. exists pre, rest. split; [exact E1|]. split; [exact E3|]. split; [exact E4|]. split; [|exact E6].
  intros k H. rewrite <- E3 in H. now apply E5.
Qed.
Theorem read_input_done : fst (read_input f reader mask user) = Done <-> forall k, wanted mask k = true -> exists q, readable k q.
Proof.
  assert (H := read_input_prefix). destruct (read_input f reader mask user) as [st s]. cbn [fst].
  destruct H as (pre & rest & E1 & E2 & E3 & E4 & E5). split.
  - intros ->. subst rest. rewrite app_nil_r in E1. intros k W.
    assert (I : In k (map fst (inited s))). { rewrite E2, <- E1. apply filter_In. split; [apply in_inputs|exact W]. }
    apply in_map_iff in I as ((k' & q) & <- & I). exists q. now apply E3.
  - intros A. destruct st; auto; destruct E5 as (k & r & -> & B).
    + assert (W : wanted mask k = true). { assert (I : In k (filter (wanted mask) inputs)) by (rewrite E1; apply in_or_app; right; now left). now apply filter_In in I. }
      destruct (A k W) as (q & Q). now apply B in Q.
    + assert (W : wanted mask k = true). { assert (I : In k (filter (wanted mask) inputs)) by (rewrite E1; apply in_or_app; right; now left). now apply filter_In in I. }
      destruct (A k W) as (q & _ & C & _). apply select_spec in C. destruct B as (_ & B). apply select_ub in B. congruence.
Qed.
Theorem read_input_slots : fst (read_input f reader mask user) = Done ->
  let s := snd (read_input f reader mask user) in
  (forall k, wanted mask k = true -> chosen f user k (slots s k)) /\ (forall k, wanted mask k = false -> slots s k = user k) /\
  map fst (inited s) = filter (wanted mask) inputs.
Proof.
  assert (H := read_input_prefix). destruct (read_input f reader mask user) as [st s]. cbn [fst snd].
  destruct H as (pre & rest & E1 & E2 & E3 & E4 & E5). intros ->. subst rest. rewrite app_nil_r in E1. repeat split.
  - intros k W. assert (I : In k (map fst (inited s))). { rewrite E2, <- E1. apply filter_In. split; [apply in_inputs|exact W]. }
    apply in_map_iff in I as ((k' & q) & <- & I). apply E3 in I as ((_ & C & _) & Eq). cbn [fst]. rewrite Eq. exact C.
  - intros k W. apply E4; [|discriminate]. rewrite <- E1. intros I. apply filter_In in I. destruct I; congruence.
  - congruence.
Qed.
End read.

(** ** Types of an input *)
Section types.
Context {T : Type}.
Variables (f : h5) (read1 : T -> bool) (qid : string).
Definition present (p : string * T) : bool := found_qid f (fst p) qid.
Lemma init_types_spec l : forall r, init_types f read1 l qid r =
  match rev (filter present l) with [] => r | (_, t) :: _ => (read1 t, Some t) end.
Proof.
  induction l as [|(tm, t) l IH]; intros r; cbn [init_types filter]; [reflexivity|]. rewrite IH. unfold present at 2. cbn [fst].
  destruct (found_qid f tm qid); [|reflexivity]. cbn [rev]. destruct (rev (filter present l)) as [|(a, b) m]; reflexivity.
Qed.
Theorem init_input_last types pre tm t : filter present types = (pre ++ [(tm, t)])%list -> init_input f types read1 qid = (read1 t, Some t).
Proof. intros E. unfold init_input. rewrite init_types_spec, E, rev_app_distr. reflexivity. Qed.
Theorem init_input_none types : (forall p, In p types -> found_qid f (fst p) qid = false) -> init_input f types read1 qid = (false, None).
Proof.
  intros N. unfold init_input. rewrite init_types_spec. replace (filter present types) with (@nil (string * T)); [reflexivity|].
  symmetry. induction types as [|p l IH]; [reflexivity|]. cbn [filter]. unfold present at 1. rewrite N by now left. apply IH. intros; apply N; now right.
Qed.
Theorem init_input_iff types : fst (init_input f types read1 qid) = true <->
  exists pre tm t, filter present types = (pre ++ [(tm, t)])%list /\ read1 t = true.
Proof.
  split.
  - intros E. destruct (filter present types) as [|p l] eqn:F using rev_ind.
    + unfold init_input in E. rewrite init_types_spec, F in E. discriminate.
    + clear IHl. destruct p as (tm, t). rewrite (init_input_last _ _ _ _ F) in E. exists l, tm, t. auto.
  - intros (pre & tm & t & F & Rd). rewrite (init_input_last _ _ _ _ F). exact Rd.
Qed.
End types.

(** ** The run group *)
Lemma att_set f s n v p m : att (set_att f s n v) p m = if path_dec p (comps s) then if String.eqb m n then Some v else att f p m else att f p m.
Proof. reflexivity. Qed.
Definition rpath (run qid : string) : path := ["results"; run ++ "_" ++ qid].
Lemma plain_results : plain "results". Proof. unfold plain, no; cbn. intuition discriminate. Qed.
Lemma run_part_plain run qid : plain run -> plain qid -> plain (run ++ "_" ++ qid).
Proof. intros A B. apply no_app; split; [exact A|]. apply no_cons; split; [discriminate|exact B]. Qed.
Lemma run_part_ne run qid : run ++ "_" ++ qid <> "". Proof. apply sapp_ne_r. discriminate. Qed.
Lemma run_path_gen run qid : no "X" run -> length qid = 10 -> gen_path ("/results/" ++ run ++ "_XXXXXXXXXX") qid = Some ("/results/" ++ run ++ "_" ++ qid).
Proof.
  intros N L. replace ("/results/" ++ run ++ "_XXXXXXXXXX") with (("/results/" ++ run ++ "_") ++ XXX ++ "") by sassoc.
  rewrite gen_path_ten; [|apply no_app; split; [unfold no; cbn; intuition discriminate|apply no_app; split; [exact N|unfold no; cbn; intuition discriminate]]|exact L].
  rewrite sapp_nil. cbn [append]. rewrite !sapp_assoc. reflexivity.
Qed.
Lemma run_path_comps run qid : plain run -> plain qid -> comps ("/results/" ++ run ++ "_" ++ qid) = rpath run qid.
Proof.
  intros A B. change ("/results/" ++ run ++ "_" ++ qid) with ("/" ++ "results" ++ "/" ++ (run ++ "_" ++ qid)).
  apply comps_two; [apply plain_results|now apply run_part_plain|discriminate|apply run_part_ne].
Qed.
Lemma comps_trail s : forall c, comps_from c (s ++ "/") = comps_from c s.
Proof.
  induction s as [|a s IH]; intros c; cbn.
  - now rewrite app_nil_r.
  - destruct (Ascii.eqb a "/"); now rewrite IH.
Qed.
Lemma run_path_comps_slash run qid : plain run -> plain qid -> comps ("/results/" ++ run ++ "_" ++ qid ++ "/") = rpath run qid.
Proof.
  intros A B. replace ("/results/" ++ run ++ "_" ++ qid ++ "/") with (("/results/" ++ (run ++ "_" ++ qid)) ++ "/") by sassoc.
  rewrite <- (run_path_comps run qid A B). unfold comps. apply comps_trail.
Qed.
Lemma run_path_comps_name run qid name : plain run -> plain qid -> plain name -> name <> "" -> comps (("/results/" ++ run ++ "_" ++ qid ++ "/") ++ name) = (rpath run qid ++ [name])%list.
Proof.
  intros A B C N. replace (("/results/" ++ run ++ "_" ++ qid ++ "/") ++ name) with ("/" ++ "results" ++ "/" ++ (run ++ "_" ++ qid) ++ "/" ++ name)
    by sassoc.
  apply comps_three; auto; [apply plain_results|now apply run_part_plain|discriminate|apply run_part_ne].
Qed.
Definition taken (f : h5) (p : path) : bool := grp f p || is_some (dst f p).
Lemma create_two a b f : create_group [] [a; b] f =
  if grp f [a] then (if taken f [a; b] then (false, f) else (true, add_group f [a; b]))
  else if is_some (dst f [a]) then (false, f)
  else if taken f [a; b] then (false, add_group f [a]) else (true, add_group (add_group f [a]) [a; b]).
Proof.
  unfold taken. cbn [create_group List.app]. destruct (grp f [a]); [reflexivity|]. destruct (is_some (dst f [a])); [reflexivity|].
  cbn [grp dst add_group]. destruct (path_dec [a; b] [a]); [discriminate|]. reflexivity.
Qed.
Lemma comps_results : comps "/results" = ["results"]. Proof. reflexivity. Qed.
Lemma comps_results' : comps "/results/" = ["results"]. Proof. reflexivity. Qed.

Lemma run_types_plain t : In t run_types -> plain t. Proof. unfold plain, no. cbn. intros [<-|[<-|[<-|[]]]]; cbn; intuition discriminate. Qed.
Section results.
Variables (out : option h5) (creatable : bool) (s : inp -> string) (desc repo date cflags cc qid run : string).
Hypothesis Lq : length qid = 10. Hypothesis Pq : plain qid.
Hypothesis Pr : plain run. Hypothesis Xr : no "X" run.
Definition file0 : option h5 := match out with Some f => Some f | None => if creatable then Some empty_file else None end.
Let res := init_results out creatable s desc repo date cflags cc qid run.
Definition room (f : h5) : Prop := taken f (rpath run qid) = false /\ (grp f ["results"] = true \/ dst f ["results"] = None).
Let base (f : h5) : h5 := if grp f ["results"] then add_group f (rpath run qid) else add_group (add_group f ["results"]) (rpath run qid).
Let rest (f : h5) : h5 :=
  let p := "/results/" ++ run ++ "_" ++ qid in
  let f := set_att f "/results" "active" qid in
  let f := fold_left (record_qid p s) recorded f in
  let f := set_att f p "description" desc in let f := set_att f p "repository" repo in
  let f := set_att f p "date" date in let f := set_att f p "CFLAGS" cflags in set_att f p "CC" cc.
Lemma init_unfold f : file0 = Some f -> (room f -> res = (Done, Some (rest (base f)))) /\ (~ room f -> fst res = Failed).
Proof.
  intros F. subst res. unfold init_results. fold file0. rewrite F, run_path_gen by assumption. rewrite run_path_comps by assumption.
  unfold rpath at 1 2. rewrite create_two. fold (rpath run qid). unfold room, base. destruct (grp f ["results"]).
  - destruct (taken f (rpath run qid)); split; intros H; try reflexivity; try (exfalso; apply H; auto); destruct H; discriminate.
  - destruct (dst f ["results"]); cbn [is_some].
    + split; [intros (_ & [H|H]); discriminate|reflexivity].
    + destruct (taken f (rpath run qid)); split; intros H; try reflexivity; try (exfalso; apply H; auto); destruct H; discriminate.
Qed.
Theorem init_results_done : fst res = Done <-> exists f, file0 = Some f /\ room f.
Proof.
  destruct file0 as [f|] eqn:F.
  - destruct (init_unfold f F) as [A B]. split.
    + intros D. exists f. split; auto. unfold room.
      destruct (taken f (rpath run qid)) eqn:K.
      { rewrite B in D; [discriminate|]. intros (H & _). congruence. }
      split; auto. destruct (grp f ["results"]) eqn:G; [now left|]. destruct (dst f ["results"]) eqn:H; [|now right].
      exfalso. rewrite B in D; [discriminate|]. intros (_ & [X|X]); congruence.
    + intros (f' & E & Rm). injection E as <-. now rewrite A.
  - subst res. unfold init_results. fold file0. rewrite F. split; [discriminate|]. intros (f & E & _). discriminate.
Qed.
Lemma grp_fold p l f : grp (fold_left (record_qid p s) l f) = grp f /\ dst (fold_left (record_qid p s) l f) = dst f.
Proof.
  revert f. induction l as [|k l IH]; intros f; cbn [fold_left]; [auto|]. destruct (IH (record_qid p s f k)) as [-> ->].
  unfold record_qid. destruct (String.eqb (s k) ""); auto.
Qed.
Lemma att_fold_other p l f q n : q <> comps p -> att (fold_left (record_qid p s) l f) q n = att f q n.
Proof.
  intros N. revert f. induction l as [|k l IH]; intros f; cbn [fold_left]; [auto|]. rewrite IH.
  unfold record_qid. destruct (String.eqb (s k) ""); auto. rewrite att_set. destruct (path_dec q (comps p)); tauto.
Qed.
Lemma att_fold_name p l f n : (forall k, In k l -> qid_attr k <> n) -> att (fold_left (record_qid p s) l f) (comps p) n = att f (comps p) n.
Proof.
  revert f. induction l as [|k l IH]; intros f N; cbn [fold_left]; [auto|]. rewrite IH by (intros; apply N; now right).
  unfold record_qid. destruct (String.eqb (s k) ""); auto. rewrite att_set. destruct (path_dec (comps p) (comps p)); [|tauto].
  destruct (String.eqb_spec n (qid_attr k)) as [->|]; auto. exfalso. apply (N k); [now left|reflexivity].
Qed.
Lemma qid_attr_inj a b : qid_attr a = qid_attr b -> a = b. Proof. destruct a, b; intros E; try reflexivity; discriminate. Qed.
Lemma att_fold_qid p l f k : NoDup l -> In k l -> att (fold_left (record_qid p s) l f) (comps p) (qid_attr k) = if String.eqb (s k) "" then att f (comps p) (qid_attr k) else Some (s k).
Proof.
  revert f. induction l as [|j l IH]; intros f ND I; [destruct I|]. cbn [fold_left]. inversion ND as [|? ? Nj ND']; subst. destruct I as [->|I].
  - rewrite att_fold_name by (intros j J E; apply qid_attr_inj in E; subst; tauto).
    unfold record_qid. destruct (String.eqb (s k) ""); auto. rewrite att_set. destruct (path_dec (comps p) (comps p)); [|tauto]. now rewrite String.eqb_refl.
  - rewrite IH by assumption. destruct (String.eqb (s k) ""); auto. unfold record_qid. destruct (String.eqb (s j) ""); auto.
    rewrite att_set. destruct (path_dec (comps p) (comps p)); [|tauto]. destruct (String.eqb_spec (qid_attr k) (qid_attr j)) as [E|]; auto.
    apply qid_attr_inj in E. subst. tauto.
Qed.
Lemma recorded_nodup : NoDup recorded. Proof. unfold recorded. repeat constructor; cbn; intuition discriminate. Qed.
Lemma in_recorded k : In k recorded. Proof. destruct k; cbn; tauto. Qed.

(** no attribute exists on a group that does not exist *)
Definition wf (f : h5) : Prop := forall p n, grp f p = false -> att f p n = None.
Lemma rest_att_run f k : wf f -> taken f (rpath run qid) = false -> att (rest (base f)) (rpath run qid) (qid_attr k) = if String.eqb (s k) "" then None else Some (s k).
Proof.
  intros W K. assert (C := run_path_comps run qid Pr Pq). unfold rest. rewrite !att_set, C.
  assert (forall n, n = "CC" \/ n = "CFLAGS" \/ n = "date" \/ n = "repository" \/ n = "description" -> String.eqb (qid_attr k) n = false) as N.
  { intros n H. destruct k; decompose [or] H; subst; reflexivity. }
  rewrite !N by tauto. destruct (path_dec (rpath run qid) (rpath run qid)); [|tauto].
  rewrite <- C, att_fold_qid by (try apply recorded_nodup; apply in_recorded). destruct (String.eqb (s k) ""); [|reflexivity].
  rewrite att_set, C. destruct (path_dec (rpath run qid) (comps "/results")) as [E|]; [discriminate E|].
  unfold base. destruct (grp f ["results"]); cbn [att add_group]; apply W; unfold taken in K; now apply orb_false_iff in K.
Qed.
Lemma rest_grp f p : grp (rest (base f)) p = grp f p || (if path_dec p (rpath run qid) then true else false) || (if path_dec p ["results"] then true else false).
Proof.
  unfold rest. cbn [grp set_att]. rewrite (proj1 (grp_fold _ _ _)). cbn [grp set_att]. unfold base.
  destruct (grp f ["results"]) eqn:G; cbn [grp add_group]; destruct (path_dec p (rpath run qid)); destruct (path_dec p ["results"]) as [->|]; rewrite ?G; try reflexivity; rewrite ?orb_true_r, ?orb_false_r; auto.
Qed.
Lemma rest_dst f : dst (rest (base f)) = dst f.
Proof. unfold rest. cbn [dst set_att]. rewrite (proj2 (grp_fold _ _ _)). cbn [dst set_att]. unfold base. destruct (grp f ["results"]); reflexivity. Qed.
Lemma rest_active f : att (rest (base f)) ["results"] "active" = Some qid.
Proof.
  assert (C := run_path_comps run qid Pr Pq). unfold rest. rewrite !att_set, C.
  destruct (path_dec ["results"] (rpath run qid)) as [E|N]; [discriminate E|]. rewrite att_fold_other by (rewrite C; exact N).
  rewrite att_set, comps_results. destruct (path_dec ["results"] ["results"]); [reflexivity|tauto].
Qed.
Lemma rest_att_other f p n : p <> rpath run qid -> (p, n) <> (["results"], "active") -> att (rest (base f)) p n = att f p n.
Proof.
  intros N M. assert (C := run_path_comps run qid Pr Pq). unfold rest. rewrite !att_set, C.
  destruct (path_dec p (rpath run qid)); [tauto|]. rewrite att_fold_other by (rewrite C; exact N).
  rewrite att_set, comps_results. unfold base. destruct (path_dec p ["results"]) as [->|].
  - destruct (String.eqb_spec n "active") as [->|]; [tauto|]. destruct (grp f ["results"]); reflexivity.
  - destruct (grp f ["results"]); reflexivity.
Qed.
Lemma rest_desc f : att (rest (base f)) (rpath run qid) "description" = Some desc.
Proof.
  assert (C := run_path_comps run qid Pr Pq). unfold rest. rewrite !att_set, C. destruct (path_dec (rpath run qid) (rpath run qid)); [reflexivity|tauto].
Qed.
Theorem init_results_effect f f' : file0 = Some f -> wf f -> res = (Done, Some f') ->
  grp f' (rpath run qid) = true /\ att f' ["results"] "active" = Some qid /\
  (forall k, att f' (rpath run qid) (qid_attr k) = if String.eqb (s k) "" then None else Some (s k)) /\
  att f' (rpath run qid) "description" = Some desc /\
  (forall p, p <> rpath run qid -> p <> ["results"] -> grp f' p = grp f p) /\ dst f' = dst f /\
  (forall p n, p <> rpath run qid -> (p, n) <> (["results"], "active") -> att f' p n = att f p n).
Proof.
  intros F W E. assert (D : fst res = Done) by now rewrite E. apply init_results_done in D as (g & G & Rm). rewrite F in G. injection G as <-.
  destruct (init_unfold f F) as [A _]. specialize (A Rm). rewrite E in A. injection A as ->. destruct Rm as [K _].
  split; [rewrite rest_grp; destruct (path_dec (rpath run qid) (rpath run qid)); [now rewrite orb_true_r|tauto]|].
  split; [apply rest_active|]. split; [intros k; now apply rest_att_run|]. split; [apply rest_desc|].
  split; [|split; [apply rest_dst|intros; now apply rest_att_other]].
  intros p N1 N2. rewrite rest_grp. destruct (path_dec p (rpath run qid)); [tauto|]. destruct (path_dec p ["results"]); [tauto|]. now rewrite !orb_false_r.
Qed.

(** where the results of this run are then written *)
Lemma active_sub : substring 0 10 qid = qid. Proof. rewrite <- Lq. apply sub_all. Qed.
Lemma found_run f t : plain t -> found f ("/results/" ++ t ++ "_" ++ qid ++ "/") = taken f (rpath t qid).
Proof. intros P. unfold found. now rewrite run_path_comps_slash. Qed.
Lemma first_found_spec f l : (forall t, In t l -> plain t) ->
  (exists pre t post, l = (pre ++ t :: post)%list /\ (forall u, In u pre -> taken f (rpath u qid) = false) /\ taken f (rpath t qid) = true /\ first_found f l qid = "/results/" ++ t ++ "_" ++ qid ++ "/")
  \/ ((forall t, In t l -> taken f (rpath t qid) = false) /\ first_found f l qid = "").
Proof.
  induction l as [|t l IH]; intros P; [right; split; [intros ? []|reflexivity]|]. cbn [first_found]. rewrite found_run by (apply P; now left).
  destruct (taken f (rpath t qid)) eqn:K.
  - left. exists [], t, l. repeat split; auto. intros ? [].
  - destruct IH as [(pre & t' & post & -> & A & B & C)|(A & B)]; [intros; apply P; now right| |].
    + left. exists (t :: pre), t', post. repeat split; auto. intros u [<-|U]; auto.
    + right. split; auto. intros u [<-|U]; auto.
Qed.
Theorem result_path_spec f name : plain name -> name <> "" -> att f ["results"] "active" = Some qid ->
  (exists pre t post, run_types = (pre ++ t :: post)%list /\ (forall u, In u pre -> taken f (rpath u qid) = false) /\ taken f (rpath t qid) = true /\ result_path f name = Ok (rpath t qid ++ [name])%list)
  \/ ((forall t, In t run_types -> taken f (rpath t qid) = false) /\ result_path f name = Ok [name]).
Proof.
  intros P N A. unfold result_path, run_group, get_active_qid. rewrite comps_results', A, Lq. cbn [Nat.ltb Nat.leb orb bind]. rewrite active_sub.
  destruct (first_found_spec f run_types run_types_plain) as [(pre & t & post & E & B & C & ->)|(B & ->)].
  - left. exists pre, t, post. repeat split; auto. f_equal. apply run_path_comps_name; auto. apply run_types_plain. rewrite E. apply in_or_app. right. now left.
  - right. split; auto. f_equal. unfold comps. cbn [append]. rewrite comps_end by exact P. cbn [append]. now apply flush_ne.
Qed.
End results.

(** results of a run just initialised go to its own group, unless a run type looked up earlier has the same QID *)
Theorem own_group out creatable s desc repo date cflags cc qid run f f' name :
  length qid = 10 -> plain qid -> plain name -> name <> "" -> wf f -> file0 out creatable = Some f ->
  init_results out creatable s desc repo date cflags cc qid run = (Done, Some f') ->
  forall pre post, run_types = (pre ++ run :: post)%list ->
  (result_path f' name = Ok (rpath run qid ++ [name])%list <-> forall u, In u pre -> taken f (rpath u qid) = false).
Proof.
  intros L P Pn Nn W F E pre post RT.
  assert (Pr : plain run) by (apply run_types_plain; rewrite RT; apply in_or_app; right; now left).
  assert (Xr : no "X" run).
  { assert (I : In run run_types) by (rewrite RT; apply in_or_app; right; now left). unfold no. cbn in I. destruct I as [<-|[<-|[<-|[]]]]; cbn; intuition discriminate. }
  destruct (init_results_effect out creatable s desc repo date cflags cc qid run L P Pr Xr f f' F W E) as (G & A & _ & _ & OG & OD & _).
  assert (NI : ~ In run pre /\ ~ In run post).
  { assert (ND : NoDup run_types) by (unfold run_types; repeat constructor; cbn; intuition discriminate). rewrite RT in ND.
    apply NoDup_remove_2 in ND. split; intros H; apply ND; apply in_or_app; tauto. }
  assert (inj : forall u v, rpath u qid = rpath v qid -> u = v).
  { intros u v H. unfold rpath in H. injection H as H. assert (S : length u = length v) by (apply (f_equal length) in H; rewrite !sapp_length in H; lia).
    assert (H2 := f_equal (substring 0 (length u)) H). rewrite sub_0 in H2. rewrite S in H2. now rewrite sub_0 in H2. }
  assert (T : forall u, u <> run -> taken f' (rpath u qid) = taken f (rpath u qid)).
  { intros u N. unfold taken. rewrite OD, OG; [reflexivity| |discriminate]. intros H. apply N. now apply inj. }
  assert (Tr : taken f' (rpath run qid) = true) by (unfold taken; now rewrite G).
  destruct (result_path_spec qid L P f' name Pn Nn A) as [(pre' & t & post' & RT' & B & C & ->)|(B & _)].
  2:{ exfalso. rewrite B in Tr; [discriminate|]. rewrite RT. apply in_or_app. right. now left. }
  split.
  - intros H. assert (t = run). { apply inj. injection H as H. unfold rpath. cbn [append]. now rewrite H. } subst t.
    assert (pre' = pre).
    { clear - RT RT' NI. rewrite RT in RT'. assert (ND : NoDup run_types) by (unfold run_types; repeat constructor; cbn; intuition discriminate). rewrite RT in ND. clear RT.
      revert pre' RT'. induction pre as [|a pre IH]; intros pre' E.
      - destruct pre' as [|b pre']; [reflexivity|]. cbn in E. injection E as <- E. exfalso. apply (proj2 NI). rewrite E. apply in_or_app. right. now left.
      - destruct pre' as [|b pre']; cbn in E; injection E as E1 E2.
        + subst. exfalso. apply (proj1 NI). now left.
        + subst b. f_equal. apply IH; auto. * split; [intros H; apply (proj1 NI); now right|apply NI]. * now inversion ND. }
    subst pre'. intros u U. rewrite <- T; [now apply B|]. intros ->. now apply NI.
  - intros H. assert (t = run); [|now subst].
    assert (D : In t pre \/ t = run \/ In t post).
    { assert (I : In t run_types) by (rewrite RT'; apply in_or_app; right; now left). rewrite RT in I. apply in_app_or in I as [I|[I|I]]; auto. }
    destruct D as [D|[D|D]]; auto.
    + exfalso. rewrite T in C; [|intros ->; now apply NI]. rewrite H in C by exact D. discriminate.
    + exfalso. assert (I : In run pre').
      { clear - RT RT' D NI. assert (ND : NoDup run_types) by (unfold run_types; repeat constructor; cbn; intuition discriminate).
        rewrite RT in RT'. rewrite RT in ND. clear RT. revert pre' RT'. induction pre as [|a pre IH]; intros pre' E.
        - destruct pre' as [|b pre']; cbn in E; injection E as E1 E2; [subst t; exfalso; now apply NI|subst b; now left].
        - destruct pre' as [|b pre']; cbn in E; injection E as E1 E2.
          + subst. exfalso. inversion ND as [|? ? Na _]; subst. apply Na. apply in_or_app. right. now right.
          + right. apply IH; auto. * split; [intros H; apply (proj1 NI); now right|apply NI]. * now inversion ND. }
      rewrite B in Tr by exact I. discriminate.
Qed.

(** ** The masks and the types *)
Definition mask_of (want : inp -> bool) : Z := fold_right (fun k m => if want k then Z.lor (flag k) m else m) 0%Z inputs.
Definition bit (k : inp) : Z :=
  match k with i_options => 0 | i_bfield => 1 | i_efield => 2 | i_plasma => 3 | i_neutral => 4 | i_wall => 5 | i_marker => 6 | i_boozer => 7 | i_mhd => 8 | i_asigma => 9 | i_nbi => 10 end%Z.
Lemma flag_bit k i : Z.testbit (flag k) i = Z.eqb (bit k) i.
Proof.
  assert (F : flag k = (2 ^ bit k)%Z) by (destruct k; reflexivity). rewrite F.
  assert (P : (0 <= bit k)%Z) by (destruct k; cbn; lia). apply Z.pow2_bits_eqb. exact P.
Qed.
Lemma land_flag m k : Z.eqb (Z.land m (flag k)) 0 = negb (Z.testbit m (bit k)).
Proof.
  destruct (Z.testbit m (bit k)) eqn:E; cbn [negb].
  - apply Z.eqb_neq. intros H. apply (f_equal (fun z => Z.testbit z (bit k))) in H. rewrite Z.land_spec, flag_bit, E, Z.eqb_refl, Z.bits_0 in H. discriminate.
  - apply Z.eqb_eq. apply Z.bits_inj. intros i. rewrite Z.land_spec, flag_bit, Z.bits_0. destruct (Z.eqb_spec (bit k) i) as [<-|]; [now rewrite E|now rewrite andb_false_r].
Qed.
Lemma mask_bit (want : inp -> bool) l i : Z.testbit (fold_right (fun k m => if want k then Z.lor (flag k) m else m) 0%Z l) i = existsb (fun k => want k && Z.eqb (bit k) i) l.
Proof.
  induction l as [|k l IH]; cbn [fold_right existsb]; [apply Z.bits_0|].
  destruct (want k); cbn [andb orb]; [|exact IH]. rewrite Z.lor_spec, flag_bit, IH. reflexivity.
Qed.
Lemma mask_selects want k : wanted (mask_of want) k = want k.
Proof.
  unfold wanted, mask_of. rewrite land_flag, negb_involutive, mask_bit. unfold inputs.
  destruct k; cbn -[Z.eqb]; rewrite ?andb_true_r, ?andb_false_r; cbn; rewrite ?andb_true_r, ?andb_false_r, ?orb_false_r; reflexivity.
Qed.
(** group prefixes of the types, as in the file documentation *)
Definition bname (t : btype) := match t with B_TC => "B_TC_" | B_GS => "B_GS_" | B_2DS => "B_2DS_" | B_3DS => "B_3DS_" | B_STS => "B_STS_" end.
Definition ename (t : etype) := match t with E_TC => "E_TC_" | E_1DS => "E_1DS_" end.
Definition plname (t : pltype) := match t with P_1D => "plasma_1D_" | P_1Dt => "plasma_1Dt_" | P_1DS => "plasma_1DS_" end.
Definition nname (t : ntype) := match t with N_1D => "N0_1D_" | N_3D => "N0_3D_" end.
Definition wname (t : wtype) := match t with W_2D => "wall_2D_" | W_3D => "wall_3D_" end.
Definition mname (t : mtype) := match t with M_stat => "MHD_STAT_" | M_nonstat => "MHD_NONSTAT_" end.
Section one_type.
Context {T : Type}.
Variables (g : string) (name : T -> string) (f : h5) (qid : string).
Definition has_type (t : T) : bool := taken f [g; (name t ++ qid)%string].
Definition types_ok (types : list (string * T)) : Prop := (forall t, In (gtmpl g (name t), t) types) /\ forall p, In p types -> fst p = gtmpl g (name (snd p)).
Hypothesis Pg : plain g. Hypothesis Ng : g <> "". Hypothesis Xg : no "X" g.
Hypothesis Pn : forall t, plain (name t) /\ name t <> "" /\ no "X" (name t).
Hypothesis Lq : length qid = 10. Hypothesis Pq : plain qid.
Lemma only_type types read1 t : types_ok types -> (forall u, has_type u = true <-> u = t) -> init_input f types read1 qid = (read1 t, Some t).
Proof.
  intros [A B] H.
  assert (F : forall p, In p types -> present f qid p = has_type (snd p)).
  { intros p I. unfold present, has_type, taken. rewrite (B p I). destruct (Pn (snd p)) as (P1 & P2 & P3). now rewrite found_address. }
  assert (X : forall l, (forall p, In p l -> In p types) -> forall r, init_types f read1 l qid r = if existsb (present f qid) l then (read1 t, Some t) else r).
  { induction l as [|[tm u] l IH]; intros S r; [reflexivity|]. cbn [init_types existsb]. rewrite IH by (intros; apply S; now right).
    assert (Q := F (tm, u) (S _ (or_introl eq_refl))). change (found_qid f tm qid) with (present f qid (tm, u)). cbn [snd] in Q.
    destruct (present f qid (tm, u)); cbn [orb]; [|reflexivity]. symmetry in Q. apply H in Q. subst u. destruct (existsb _ l); reflexivity. }
  unfold init_input. rewrite X by auto.
  destruct (existsb (present f qid) types) eqn:E; [reflexivity|].
  assert (Y : existsb (present f qid) types = true); [|congruence]. apply existsb_exists. exists (gtmpl g (name t), t). split; [apply A|].
  rewrite F by apply A. cbn. now apply H.
Qed.
End one_type.
Ltac tys := split; [intros []; cbn; tauto|intros p H; cbn in H; repeat (destruct H as [<-|H]; [reflexivity|]); destruct H].
Ltac pl := unfold plain, no; cbn; intuition discriminate.
Lemma bfield_only f qid read1 t : length qid = 10 -> plain qid -> (forall u, has_type "bfield" bname f qid u = true <-> u = t) -> init_input f bfield_types read1 qid = (read1 t, Some t).
Proof. intros L P. apply only_type; auto; try discriminate; [pl|pl|intros []; repeat split; try discriminate; pl|tys]. Qed.
Lemma efield_only f qid read1 t : length qid = 10 -> plain qid -> (forall u, has_type "efield" ename f qid u = true <-> u = t) -> init_input f efield_types read1 qid = (read1 t, Some t).
Proof. intros L P. apply only_type; auto; try discriminate; [pl|pl|intros []; repeat split; try discriminate; pl|tys]. Qed.
Lemma plasma_only f qid read1 t : length qid = 10 -> plain qid -> (forall u, has_type "plasma" plname f qid u = true <-> u = t) -> init_input f plasma_types read1 qid = (read1 t, Some t).
Proof. intros L P. apply only_type; auto; try discriminate; [pl|pl|intros []; repeat split; try discriminate; pl|tys]. Qed.
Lemma neutral_only f qid read1 t : length qid = 10 -> plain qid -> (forall u, has_type "neutral" nname f qid u = true <-> u = t) -> init_input f neutral_types read1 qid = (read1 t, Some t).
Proof. intros L P. apply only_type; auto; try discriminate; [pl|pl|intros []; repeat split; try discriminate; pl|tys]. Qed.
Lemma wall_only f qid read1 t : length qid = 10 -> plain qid -> (forall u, has_type "wall" wname f qid u = true <-> u = t) -> init_input f wall_types read1 qid = (read1 t, Some t).
Proof. intros L P. apply only_type; auto; try discriminate; [pl|pl|intros []; repeat split; try discriminate; pl|tys]. Qed.
Lemma mhd_only f qid read1 t : length qid = 10 -> plain qid -> (forall u, has_type "mhd" mname f qid u = true <-> u = t) -> init_input f mhd_types read1 qid = (read1 t, Some t).
Proof. intros L P. apply only_type; auto; try discriminate; [pl|pl|intros []; repeat split; try discriminate; pl|tys]. Qed.
