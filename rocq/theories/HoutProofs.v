From Coq Require Import Reals ZArith List String Ascii Bool Arith Lia Lra Sorted.
Import ListNotations.
From Verif Require Import MainModel MainProofs HdfModel HdfProofs PhysModel HmkModel HmkProofs ErrorModel ErrorProofs StateModel MpiModel DistModel DistProofs HoutModel.
Local Open Scope string_scope.
Local Open Scope R_scope.

(** ** Specification *)
(** SI value of a unit *)
Definition si (u : string) : option R :=
  if in_dec string_dec u ["m"; "s"; "rad"; "T"; "kg*m/s"; "markers/s"; "1"; "1/s"; "m/s"; "m^2/s"] then Some 1
  else if String.eqb u "deg" then Some (PI / 180)
  else if String.eqb u "eV/T" then Some CONST_E
  else if String.eqb u "T/eV" then Some (1 / CONST_E)
  else if String.eqb u "eV" then Some CONST_E
  else if String.eqb u "eV*s" then Some CONST_E
  else if String.eqb u "amu" then Some CONST_U
  else if String.eqb u "e" then Some CONST_E
  else None.
(** a dataset of the group [g] with its unit *)
Definition ds (f : h5) (g : path) (name : string) : option dset := dst f (g ++ [name])%list.
Definition unit_of (f : h5) (g : path) (name : string) : option string := att f (g ++ [name])%list "unit".
(** the dataset holds one quantity per entry of [l]: entry times unit is the quantity *)
Definition holds {A} (f : h5) (g : path) (name : string) (l : list A) (q : A -> R) : Prop :=
  exists u k v, unit_of f g name = Some u /\ si u = Some k /\ ds f g name = Some (DReal v) /\ Forall2 (fun x a => x * k = q a) v l.
Definition holds_int {A} (f : h5) (g : path) (name : string) (l : list A) (q : A -> Z) : Prop :=
  unit_of f g name = Some "1" /\ exists v, ds f g name = Some (DInt v) /\ Forall2 (fun x a => x = q a) v l.
Definition holds_charge {A} (f : h5) (g : path) (name : string) (l : list A) (q : A -> R) : Prop :=
  unit_of f g name = Some "e" /\ exists v, ds f g name = Some (DInt v) /\ Forall2 (fun x a => IZR x * CONST_E = q a) v l.
Definition int32 (z : Z) : Prop := (- 2 ^ 31 <= z < 2 ^ 31)%Z.
Definition int64 (z : Z) : Prop := (- 2 ^ 63 <= z < 2 ^ 63)%Z.

(** ** Groups and columns *)
Definition cname (c : column_out) : string := fst (fst c).
Definition cunit (c : column_out) : string := snd (fst c).
Definition cdata (c : column_out) : dset := snd c.
Lemma write_column_dst g f c p : dst (write_column g f c) p = dst (write_ds f g (cname c, cdata c)) p.
Proof. destruct c as [[n u] d]. unfold write_column, set_unit, cname, cdata. cbn [fst snd]. destruct (dst (write_ds f g (n, d)) (g ++ [n])%list); reflexivity. Qed.
Lemma write_ds_grp f g x : grp (write_ds f g x) = grp f. Proof. unfold write_ds. destruct (_ || _); reflexivity. Qed.
Lemma write_ds_att f g x : att (write_ds f g x) = att f. Proof. unfold write_ds. destruct (_ || _); reflexivity. Qed.
Lemma write_column_grp g f c : grp (write_column g f c) = grp f.
Proof. destruct c as [[n u] d]. unfold write_column, set_unit. destruct (dst _ _); cbn; apply write_ds_grp. Qed.
Lemma write_column_other g f c p : p <> (g ++ [cname c])%list -> dst (write_column g f c) p = dst f p /\ (forall n, att (write_column g f c) p n = att f p n).
Proof.
  intros D. rewrite write_column_dst. destruct c as [[n u] d]. cbn [cname cdata fst snd] in *. unfold write_column. split.
  - unfold write_ds. destruct (_ || _); [reflexivity|]. cbn. destruct path_dec; congruence.
  - intros m. unfold set_unit. destruct (dst _ _); [|now rewrite write_ds_att]. cbn. destruct path_dec; [congruence|]. now rewrite write_ds_att.
Qed.
Lemma write_column_new g f c : dlength (cdata c) <> 0%nat -> dst f (g ++ [cname c])%list = None -> grp f (g ++ [cname c])%list = false ->
  dst (write_column g f c) (g ++ [cname c])%list = Some (cdata c) /\ att (write_column g f c) (g ++ [cname c])%list "unit" = Some (cunit c).
Proof.
  intros L D G.
  assert (W : write_ds f g (cname c, cdata c) = set_dst f (g ++ [cname c])%list (cdata c)).
  { unfold write_ds. cbn [fst snd]. rewrite D, G. destruct (Nat.eqb_spec (dlength (cdata c)) 0); [congruence|reflexivity]. }
  rewrite write_column_dst, W. split; [cbn; destruct path_dec; congruence|].
  destruct c as [[n u] d]. cbn [cname cdata cunit fst snd] in *. unfold write_column, set_unit. rewrite W. cbn.
  destruct path_dec; [|congruence]. cbn. destruct path_dec; [reflexivity|congruence].
Qed.
Lemma fold_columns g cols : forall f, NoDup (map cname cols) -> (forall c, In c cols -> dst f (g ++ [cname c])%list = None /\ grp f (g ++ [cname c])%list = false) ->
  let f' := fold_left (write_column g) cols f in
  grp f' = grp f /\ (forall p, (forall c, In c cols -> p <> (g ++ [cname c])%list) -> dst f' p = dst f p /\ forall n, att f' p n = att f p n) /\
  (forall c, In c cols -> dlength (cdata c) <> 0%nat -> dst f' (g ++ [cname c])%list = Some (cdata c) /\ att f' (g ++ [cname c])%list "unit" = Some (cunit c)).
Proof.
  cbv zeta. induction cols as [|c cols IH]; intros f N H; cbn [fold_left].
  - split; [reflexivity|]. split; [auto|intros c []].
  - cbn [map] in N. apply NoDup_cons_iff in N as [Nc N].
    assert (D : forall x, In x cols -> (g ++ [cname x])%list <> (g ++ [cname c])%list).
    { intros x I E. apply app_inj_tail in E as [_ E]. apply Nc. rewrite <- E. now apply in_map. }
    destruct (IH (write_column g f c) N) as (A & B & C).
    { intros x I. rewrite write_column_grp. destruct (write_column_other g f c _ (D x I)) as [-> _]. apply H. now right. }
    rewrite A, write_column_grp. split; [reflexivity|]. split.
    + intros p P. destruct (B p) as [B1 B2]; [intros x I; apply P; now right|].
      destruct (write_column_other g f c p (P c (or_introl eq_refl))) as [O1 O2]. split; [congruence|]. intros n. rewrite B2. apply O2.
    + intros x [<-|I] L; [|now apply C].
      destruct (H c (or_introl eq_refl)) as [H1 H2]. destruct (write_column_new g f c L H1 H2) as [W1 W2].
      destruct (B (g ++ [cname c])%list) as [B1 B2]; [intros y J E; now apply (D y J)|]. rewrite B1, B2. auto.
Qed.
Definition writable (f : h5) (parent : path) (name : string) : Prop := grp f parent = true /\ taken f (parent ++ [name])%list = false.
(** what a successful write does *)
Definition written (f f' : h5) (g : path) (names : list string) : Prop :=
  grp f' g = true /\ (forall p, p <> g -> grp f' p = grp f p) /\
  (forall p, (forall n, In n names -> p <> (g ++ [n])%list) -> dst f' p = dst f p /\ forall n, att f' p n = att f p n).
Lemma write_group_spec f parent name cols : tree f -> NoDup (map cname cols) ->
  (fst (write_group f parent name cols) = true <-> writable f parent name) /\
  (fst (write_group f parent name cols) = false -> snd (write_group f parent name cols) = f) /\
  (writable f parent name -> let g := (parent ++ [name])%list in let f' := snd (write_group f parent name cols) in
    written f f' g (map cname cols) /\ forall c, In c cols -> dlength (cdata c) <> 0%nat -> ds f' g (cname c) = Some (cdata c) /\ unit_of f' g (cname c) = Some (cunit c)).
Proof.
  intros T N. unfold write_group, h5_create, writable, taken.
  destruct (grp f parent) eqn:Gp; cbn [andb fst snd]; [|split; [split; [discriminate|intros []; discriminate]|split; [auto|intros []; discriminate]]].
  destruct (grp f (parent ++ [name])%list || is_some (dst f (parent ++ [name])%list)) eqn:K; cbn [negb fst snd].
  - split; [split; [discriminate|intros []; discriminate]|split; [auto|intros []; discriminate]].
  - split; [tauto|]. split; [discriminate|]. intros _. cbv zeta. apply orb_false_iff in K as [Kg Kd].
    destruct (fold_columns (parent ++ [name])%list cols (add_group f (parent ++ [name])%list) N) as (A & B & C).
    { intros c I. destruct (T (parent ++ [name])%list (cname c) Kg) as [T1 T2]. split; [exact T2|]. cbn.
      destruct path_dec as [E|]; [|exact T1]. exfalso. apply (f_equal (@List.length string)) in E. rewrite List.app_length in E. cbn in E. lia. }
    split; [|intros c I L; exact (C c I L)].
    unfold written. rewrite A. cbn. split; [destruct path_dec; congruence|]. split; [intros p D; destruct path_dec; congruence|].
    intros p P. apply B. intros c I. apply P. now apply in_map.
Qed.

(** ** States *)
Definition state_reals : list (string * (marker -> R)) :=
  [("rprt", s_rprt); ("phiprt", s_phiprt); ("zprt", s_zprt); ("prprt", s_p_r); ("pphiprt", s_p_phi); ("pzprt", s_p_z);
   ("r", s_r); ("phi", s_phi); ("z", s_z); ("ppar", s_ppar); ("mu", s_mu); ("zeta", s_zeta);
   ("weight", s_weight); ("time", s_time); ("mileage", s_mileage); ("cputime", s_cputime); ("rho", s_rho); ("theta", s_theta);
   ("mass", s_mass); ("br", s_B_r); ("bphi", s_B_phi); ("bz", s_B_z)].
Definition state_ints : list (string * (marker -> Z)) :=
  [("ids", s_id); ("endcond", s_endcond); ("walltile", s_walltile); ("anum", s_anum); ("znum", s_znum)].
Definition error_names : list string := ["errormsg"; "errorline"; "errormod"].
Definition state_names : list string := (map fst state_reals ++ map fst state_ints ++ ["charge"] ++ error_names)%list.
(** a marker's error flag is zero or was raised somewhere in the first 1023 lines of a file *)
Definition raised (e msg line mod_ : Z) : Prop :=
  (e = 0 /\ msg = 0 /\ line = 0 /\ mod_ = 0 \/ exists t f, e = error_raise t line f /\ msg = type_code t /\ mod_ = file_code f /\ 0 <= line < 1024)%Z.
Definition sane (p : marker) : Prop :=
  int32 (s_anum p) /\ int32 (s_znum p) /\ (exists k, int32 k /\ s_charge p = IZR k * CONST_E).
Lemma F2map {A} (q : A -> R) k (h : A -> R) l : (forall a, h a * k = q a) -> Forall2 (fun x a => x * k = q a) (map h l) l.
Proof. intros H. induction l; constructor; auto. Qed.
Lemma F2mapz {A} (q : A -> Z) (h : A -> Z) l : (forall a, In a l -> h a = q a) -> Forall2 (fun x a => x = q a) (map h l) l.
Proof. intros H. induction l; constructor; [apply H; now left|apply IHl; intros; apply H; now right]. Qed.
Lemma F2mapc {A} (q : A -> R) (h : A -> Z) l : (forall a, In a l -> IZR (h a) * CONST_E = q a) -> Forall2 (fun x a => IZR x * CONST_E = q a) (map h l) l.
Proof. intros H. induction l; constructor; [apply H; now left|apply IHl; intros; apply H; now right]. Qed.
Lemma si1 u : In u ["m"; "s"; "rad"; "T"; "kg*m/s"; "markers/s"; "1"; "1/s"; "m/s"; "m^2/s"] -> si u = Some 1.
Proof. intros H. unfold si. destruct in_dec; [reflexivity|contradiction]. Qed.
Lemma i32_id z : int32 z -> i32 z = z. Proof. unfold int32, i32. intros. apply clip_id. lia. Qed.
Lemma i64_id z : int64 z -> i64 z = z. Proof. unfold int64, i64. intros. apply clip_id. lia. Qed.
Lemma state_nodup ps : NoDup (map cname (state_columns ps)).
Proof. cbn. repeat constructor; cbn; intuition discriminate. Qed.
Lemma state_names_eq ps : forall n, In n (map cname (state_columns ps)) <-> In n state_names.
Proof. intros n. cbn. tauto. Qed.
Lemma parse_raised e msg line mod_ : raised e msg line mod_ -> error_parse e = (msg, line, mod_) /\ int32 msg /\ int32 line /\ int32 mod_.
Proof.
  intros [(-> & -> & -> & ->)|(t & f & -> & -> & -> & L)]; [split; [reflexivity|unfold int32; lia]|].
  assert (A := type_code_range t). assert (B := file_code_range f). split; [|unfold int32; lia].
  rewrite roundtrip by lia. reflexivity.
Qed.
Theorem state_written f run state ps : tree f ->
  (fst (state_write f run state ps) = true <-> writable f run state) /\
  (fst (state_write f run state ps) = false -> snd (state_write f run state ps) = f) /\
  (writable f run state -> ps <> [] -> Forall sane ps ->
   let g := (run ++ [state])%list in let f' := snd (state_write f run state ps) in
   written f f' g state_names /\
   (forall n q, In (n, q) state_reals -> holds f' g n ps q) /\ (forall n q, In (n, q) state_ints -> holds_int f' g n ps q) /\ holds_charge f' g "charge" ps s_charge /\
   (forall msg line mod_ : marker -> Z, (forall p, In p ps -> raised (s_err p) (msg p) (line p) (mod_ p)) ->
      holds_int f' g "errormsg" ps msg /\ holds_int f' g "errorline" ps line /\ holds_int f' g "errormod" ps mod_)).
Proof.
  intros T. unfold state_write. destruct (write_group_spec f run state (state_columns ps) T (state_nodup ps)) as (A & B & C).
  split; [exact A|]. split; [exact B|]. intros W Ne Sa. cbv zeta. specialize (C W). cbv zeta in C.
  set (f' := snd (write_group f run state (state_columns ps))) in *. destruct C as ((G1 & G2 & G3) & C).
  split. { split; [exact G1|]. split; [exact G2|]. intros p H. apply G3. intros n I. apply H. now apply state_names_eq in I. }
  assert (Len : List.length ps <> 0%nat) by (destruct ps; [congruence|discriminate]).
  assert (KR : forall n u k h q, In (n, u, reals ps h) (state_columns ps) -> si u = Some k -> (forall p, h p * k = q p) -> holds f' (run ++ [state])%list n ps q).
  { intros n u k h q I K H. destruct (C _ I) as [C1 C2]; [cbn; now rewrite map_length|]. exists u, k, (map h ps). split; [exact C2|]. split; [exact K|]. split; [exact C1|]. now apply F2map. }
  assert (KL : forall n h q, In (n, "1", longs ps h) (state_columns ps) -> (forall p, In p ps -> h p = q p) -> holds_int f' (run ++ [state])%list n ps q).
  { intros n h q I H. destruct (C _ I) as [C1 C2]; [cbn; now rewrite map_length|]. split; [exact C2|]. exists (map h ps). split; [exact C1|]. now apply F2mapz. }
  assert (KI : forall n h q, In (n, "1", ints ps h) (state_columns ps) -> (forall p, In p ps -> h p = q p /\ int32 (q p)) -> holds_int f' (run ++ [state])%list n ps q).
  { intros n h q I H. apply (KL n (fun p => i32 (h p))); [exact I|]. intros p J. destruct (H p J) as [-> R]. now apply i32_id. }
  assert (Pi := PI_RGT_0). assert (E0 := E_pos). assert (U0 := U_pos). rewrite Forall_forall in Sa.
  split; [|split; [|split]].
  - intros n q I. cbn in I. 
    repeat (destruct I as [I|I]; [injection I as <- <-;
      first [ eapply (KR _ _ 1); [cbn; tauto|apply si1; cbn; tauto|intros; ring]
            | eapply (KR _ "deg" (PI / 180)); [cbn; tauto|reflexivity|intros; unfold deg; field; lra]
            | eapply (KR _ "eV/T" CONST_E); [cbn; tauto|reflexivity|intros; cbv beta; field; lra]
            | eapply (KR _ "amu" CONST_U); [cbn; tauto|reflexivity|intros; cbv beta; field; lra] ]|]); destruct I.
  - intros n q I. cbn in I. repeat (destruct I as [I|I]; [injection I as <- <-; first
      [ eapply KL; [cbn; tauto|reflexivity] | eapply KI; [cbn; tauto|intros p J; destruct (Sa p J) as (S1 & S2 & S3); auto] ]|]); destruct I.
  - destruct (C ("charge", "e", ints ps (fun p => rnd (s_charge p / CONST_E)))) as [C1 C2]; [cbn; tauto|cbn; now rewrite map_length|].
    split; [exact C2|]. eexists. split; [exact C1|]. apply F2mapc. intros p J. destruct (Sa p J) as (_ & _ & k & K & ->).
    replace (IZR k * CONST_E / CONST_E) with (IZR k) by (field; lra). rewrite rnd_int, i32_id by exact K. reflexivity.
  - intros msg line mod_ H. split; [|split].
    + apply (KI _ (fun p => let '(msg, line, mod_) := error_parse (s_err p) in msg)); [cbn; tauto|]. intros p J. destruct (parse_raised _ _ _ _ (H p J)) as (-> & R1 & R2 & R3). auto.
    + apply (KI _ (fun p => let '(msg, line, mod_) := error_parse (s_err p) in line)); [cbn; tauto|]. intros p J. destruct (parse_raised _ _ _ _ (H p J)) as (-> & R1 & R2 & R3). auto.
    + apply (KI _ (fun p => let '(msg, line, mod_) := error_parse (s_err p) in mod_)); [cbn; tauto|]. intros p J. destruct (parse_raised _ _ _ _ (H p J)) as (-> & R1 & R2 & R3). auto.
Qed.

(** ** Orbits *)
Definition oname (q : ofield) : string :=
  match q with
  | o_id => "ids" | o_mileage => "mileage" | o_r => "r" | o_phi => "phi" | o_z => "z" | o_pr => "pr" | o_pphi => "pphi" | o_pz => "pz"
  | o_ppar => "ppar" | o_mu => "mu" | o_zeta => "zeta" | o_charge => "charge" | o_weight => "weight" | o_rho => "rho" | o_theta => "theta"
  | o_Br => "br" | o_Bphi => "bphi" | o_Bz => "bz" | o_simmode => "simmode" | o_pncrid => "pncrid" | o_pncrdi => "pncrdi" end.
(** the slots in use, in order *)
Definition rows_of (n : nat) (used : nat -> Prop) (rows : list nat) : Prop := StronglySorted lt rows /\ forall i, In i rows <-> (i < n)%nat /\ used i.
Definition int_field (q : ofield) : bool := match q with o_id | o_simmode | o_pncrid | o_pncrdi => true | _ => false end.
Definition width_ok (q : ofield) (z : Z) : Prop := match q with o_id | o_simmode => int32 z | _ => int64 z end.
Definition same_number (q : nat -> R) (z : nat -> Z) (rows : list nat) : Prop := forall i, In i rows -> q i = IZR (z i).
Lemma int_part_int j : Int_part (IZR j) = j.
Proof. unfold Int_part. assert (up (IZR j) = (j + 1)%Z); [|lia]. symmetry. apply tech_up; rewrite plus_IZR; lra. Qed.
Lemma ftrunc_int k : ftrunc (IZR k) = k.
Proof. unfold ftrunc. destruct (Rlt_dec (IZR k) 0); [|apply int_part_int]. rewrite <- opp_IZR, int_part_int. lia. Qed.
Lemma sorted_seq n : forall s, StronglySorted lt (seq s n).
Proof. induction n; intros s; cbn; constructor; auto. apply Forall_forall. intros x I. apply in_seq in I. lia. Qed.
Lemma sorted_filter p : forall l, StronglySorted lt l -> StronglySorted lt (filter p l).
Proof.
  induction l as [|a l IH]; intros H; cbn; [constructor|]. inversion_clear H as [|? ? S F]. destruct (p a); [|auto]. constructor; [auto|].
  rewrite Forall_forall in F |- *. intros x I. apply filter_In in I as [I _]. auto.
Qed.
Lemma in_use_rows o : (forall i, (i < o_len o)%nat -> o_data o o_id i = 0 \/ 1 <= o_data o o_id i) -> rows_of (o_len o) (fun i => o_data o o_id i <> 0) (in_use o).
Proof.
  intros H. split; [apply sorted_filter, sorted_seq|]. intros i. unfold in_use. rewrite filter_In, in_seq. cbn. split.
  - intros [L D]. split; [lia|]. destruct Rlt_dec; [lra|discriminate].
  - intros [L D]. split; [lia|]. destruct Rlt_dec as [|K]; [reflexivity|]. destruct (H i L); [contradiction|lra].
Qed.
Lemma rows_unique n u a b : rows_of n u a -> rows_of n u b -> a = b.
Proof.
  intros [Sa Ia] [Sb Ib]. assert (E : forall i, In i a <-> In i b) by (intros i; rewrite Ia, Ib; tauto). clear Ia Ib. revert b Sb E.
  induction Sa as [|x a Sa IH Fa]; intros b Sb E.
  - destruct b as [|y b]; [reflexivity|]. destruct (proj2 (E y) (or_introl eq_refl)).
  - destruct Sb as [|y b Sb Fb]; [destruct (proj1 (E x) (or_introl eq_refl))|].
    rewrite Forall_forall in Fa, Fb.
    assert (x = y).
    { destruct (proj1 (E x) (or_introl eq_refl)) as [->|Ix]; [reflexivity|]. destruct (proj2 (E y) (or_introl eq_refl)) as [->|Iy]; [reflexivity|].
      specialize (Fb x Ix). specialize (Fa y Iy). lia. }
    subst y. f_equal. apply IH; [exact Sb|]. intros i. specialize (E i). cbn in E. split; intros I.
    + destruct (proj1 E (or_intror I)) as [<-|]; [|assumption]. specialize (Fa x I). lia.
    + destruct (proj2 E (or_intror I)) as [<-|]; [|assumption]. specialize (Fb x I). lia.
Qed.
Definition sname (a : string * string * otype * R * ofield) : string := let '(n, u, ty, k, q) := a in n.
Lemma cname_writeset o a : cname (writeset o a) = sname a.
Proof. destruct a as [[[[n u] ty] k] q]. reflexivity. Qed.
Lemma orbit_nodup m pc : NoDup (map sname (orbit_sets m pc)).
Proof. destruct m, pc; cbn; repeat constructor; cbn; intuition discriminate. Qed.
Lemma orbit_names m pc n : In n (map sname (orbit_sets m pc)) <-> In n (map oname (orb_allocated m pc)).
Proof. destruct m, pc; cbn; tauto. Qed.
Definition set_real (a : string * string * otype * R * ofield) : Prop :=
  let '(n, u, ty, c, q) := a in n = oname q /\
  match ty with
  | F64 => int_field q = false /\ q <> o_charge /\ exists k, si u = Some k /\ c * k = 1
  | I32 => (q = o_id \/ q = o_simmode) /\ u = "1" /\ c = 1
  | I64 => (q = o_charge /\ u = "e" /\ c = 1 / CONST_E) \/ ((q = o_pncrid \/ q = o_pncrdi) /\ u = "1" /\ c = 1)
  end.
Local Opaque CONST_E IZR.
Lemma orbit_sets_real m pc : Forall set_real (orbit_sets m pc).
Proof.
  assert (Pi := PI_RGT_0). assert (E0 := E_pos).
  assert (A : forall n u q, n = oname q -> int_field q = false -> q <> o_charge -> In u ["m"; "s"; "rad"; "T"; "kg*m/s"; "markers/s"; "1"; "1/s"; "m/s"; "m^2/s"] -> set_real (n, u, F64, 1, q)).
  { intros n u q -> H D I. split; [reflexivity|]. split; [exact H|]. split; [exact D|]. exists 1. split; [now apply si1|ring]. }
  assert (D : forall n q, n = oname q -> int_field q = false -> q <> o_charge -> set_real (n, "deg", F64, 180 / PI, q)).
  { intros n q -> H D. split; [reflexivity|]. split; [exact H|]. split; [exact D|]. exists (PI / 180). split; [reflexivity|field; lra]. }
  assert (M : set_real ("mu", "eV/T", F64, 1 / CONST_E, o_mu)).
  { split; [reflexivity|]. split; [reflexivity|]. split; [discriminate|]. exists CONST_E. split; [reflexivity|field; lra]. }
  assert (I1 : set_real ("ids", "1", I32, 1, o_id)) by (split; [reflexivity|split; [now left|split; reflexivity]]).
  assert (I2 : set_real ("simmode", "1", I32, 1, o_simmode)) by (split; [reflexivity|split; [now right|split; reflexivity]]).
  assert (I3 : set_real ("charge", "e", I64, 1 / CONST_E, o_charge)) by (split; [reflexivity|left; repeat split; reflexivity]).
  assert (I4 : set_real ("pncrid", "1", I64, 1, o_pncrid)) by (split; [reflexivity|right; split; [now left|split; reflexivity]]).
  assert (I5 : set_real ("pncrdi", "1", I64, 1, o_pncrdi)) by (split; [reflexivity|right; split; [now right|split; reflexivity]]).
  apply Forall_app. split.
  - destruct m; repeat (apply Forall_cons || apply Forall_nil); first [exact I1|exact I2|exact I3|exact M|(apply D; [reflexivity|reflexivity|discriminate])|(apply A; [reflexivity|reflexivity|discriminate|cbn; tauto])].
  - destruct pc; repeat (apply Forall_cons || apply Forall_nil); first [exact I4|exact I5].
Qed.
Local Transparent CONST_E IZR.
Lemma orbit_has m pc q : In q (orb_allocated m pc) -> exists a, In a (orbit_sets m pc) /\ snd a = q.
Proof. intros I. assert (X : In q (map snd (orbit_sets m pc))) by (destruct m, pc; cbn in I |- *; tauto). apply in_map_iff in X as (a & <- & J). eauto. Qed.
Theorem orbit_written f run name m pc o rows : tree f -> rows_of (o_len o) (fun i => o_data o o_id i <> 0) rows ->
  (forall i, (i < o_len o)%nat -> o_data o o_id i = 0 \/ 1 <= o_data o o_id i) ->
  (fst (orbit_write f run name m pc o) = true <-> writable f run name) /\
  (writable f run name -> rows <> [] -> let g := (run ++ [name])%list in let f' := snd (orbit_write f run name m pc o) in
   written f f' g (map oname (orb_allocated m pc)) /\
   forall q, In q (orb_allocated m pc) ->
     (int_field q = false -> q <> o_charge -> holds f' g (oname q) rows (o_data o q)) /\
     (int_field q = true -> forall z, same_number (o_data o q) z rows -> (forall i, In i rows -> width_ok q (z i)) -> holds_int f' g (oname q) rows z) /\
     (q = o_charge -> (forall i, In i rows -> exists k, int64 k /\ o_data o q i = IZR k * CONST_E) -> holds_charge f' g (oname q) rows (o_data o q))).
Proof.
  intros T Rw Id. assert (E : rows = in_use o) by (eapply rows_unique; [exact Rw|now apply in_use_rows]). clear Rw.
  unfold orbit_write.
  assert (N : NoDup (map cname (map (writeset o) (orbit_sets m pc)))).
  { rewrite map_map. erewrite map_ext; [apply orbit_nodup|apply cname_writeset]. }
  destruct (write_group_spec f run name (map (writeset o) (orbit_sets m pc)) T N) as (A & _ & C). split; [exact A|].
  intros W Ne. cbv zeta. specialize (C W). cbv zeta in C. set (f' := snd (write_group f run name (map (writeset o) (orbit_sets m pc)))) in *.
  destruct C as ((G1 & G2 & G3) & C). split.
  { split; [exact G1|]. split; [exact G2|]. intros p H. apply G3. intros n I. apply H. rewrite map_map in I. erewrite map_ext in I by apply cname_writeset. now apply orbit_names in I. }
  intros q Iq. destruct (orbit_has m pc q Iq) as (a & Ia & Sa). assert (R := orbit_sets_real m pc). rewrite Forall_forall in R. specialize (R a Ia).
  destruct a as [[[[n u] ty] c] q']. cbn in Sa. subst q'. destruct R as [-> R].
  assert (Len : List.length (in_use o) <> 0%nat) by (rewrite <- E; destruct rows; [congruence|discriminate]).
  destruct (C (writeset o (oname q, u, ty, c, q))) as [C1 C2]; [now apply in_map|destruct ty; cbn; now rewrite map_length|].
  assert (E0 := E_pos). rewrite E. destruct ty; cbn [writeset cname cunit cdata fst snd] in C1, C2.
  - destruct R as (R1 & R2 & k & R3 & R4). split; [|split; [congruence|congruence]].
    intros _ _. exists u, k, (map (fun i => c * o_data o q i) (in_use o)). split; [exact C2|]. split; [exact R3|]. split; [exact C1|].
    apply F2map. intros i. transitivity (c * k * o_data o q i); [ring|rewrite R4; ring].
  - destruct R as (R1 & -> & ->). split; [destruct R1 as [-> | ->]; discriminate|]. split; [|destruct R1 as [-> | ->]; discriminate].
    intros _ z Sm Wd. split; [exact C2|]. eexists. split; [exact C1|]. apply F2mapz. intros i I. cbv beta. rewrite Rmult_1_l, (Sm i I), ftrunc_int.
    apply i32_id. specialize (Wd i I). destruct R1 as [-> | ->]; exact Wd.
  - destruct R as [(-> & -> & ->)|(R1 & -> & ->)].
    + split; [congruence|]. split; [discriminate|]. intros _ H. split; [exact C2|]. eexists. split; [exact C1|]. apply F2mapc. intros i I.
      destruct (H i I) as (k & K & ->). replace (1 / CONST_E * (IZR k * CONST_E)) with (IZR k) by (field; lra). rewrite ftrunc_int, i64_id by exact K. reflexivity.
    + split; [destruct R1 as [-> | ->]; discriminate|]. split; [|destruct R1 as [-> | ->]; discriminate].
      intros _ z Sm Wd. split; [exact C2|]. eexists. split; [exact C1|]. apply F2mapz. intros i I. cbv beta. rewrite Rmult_1_l, (Sm i I), ftrunc_int.
      apply i64_id. specialize (Wd i I). destruct R1 as [-> | ->]; exact Wd.
Qed.
(** a run that recorded nothing leaves an empty group *)
Lemma fold_columns_empty g cols : (forall c, In c cols -> dlength (cdata c) = 0%nat) -> forall f, (forall c, In c cols -> dst f (g ++ [cname c])%list = None) ->
  forall n, In n (map cname cols) -> dst (fold_left (write_column g) cols f) (g ++ [n])%list = None.
Proof.
  intros H. assert (K : forall cs f, (forall c, In c cs -> In c cols) -> (forall c, In c cols -> dst f (g ++ [cname c])%list = None) -> forall c, In c cols -> dst (fold_left (write_column g) cs f) (g ++ [cname c])%list = None).
  { induction cs as [|x cs IH]; intros f S D c I; cbn [fold_left]; [auto|]. apply IH; [intros; apply S; now right| |exact I].
    intros y J. rewrite write_column_dst. unfold write_ds. cbn [fst snd]. rewrite (H x (S x (or_introl eq_refl))). cbn. auto. }
  intros f D n I. apply in_map_iff in I as (c & <- & I). apply K; auto.
Qed.
Theorem orbit_empty f run name m pc o : tree f -> (forall i, (i < o_len o)%nat -> o_data o o_id i = 0) -> writable f run name ->
  let f' := snd (orbit_write f run name m pc o) in
  fst (orbit_write f run name m pc o) = true /\ grp f' (run ++ [name])%list = true /\ forall q, In q (orb_allocated m pc) -> ds f' (run ++ [name])%list (oname q) = None.
Proof.
  intros T Z0 W. cbv zeta.
  assert (U : in_use o = []).
  { destruct (in_use o) as [|i l] eqn:E; [reflexivity|]. assert (I : In i (in_use o)) by (rewrite E; now left). apply filter_In in I as [I D]. apply in_seq in I.
    rewrite Z0 in D by lia. destruct Rlt_dec; [lra|discriminate]. }
  assert (N : NoDup (map cname (map (writeset o) (orbit_sets m pc)))).
  { rewrite map_map. erewrite map_ext; [apply orbit_nodup|apply cname_writeset]. }
  destruct (write_group_spec f run name (map (writeset o) (orbit_sets m pc)) T N) as (A & _ & C).
  split; [now apply A|]. destruct (C W) as ((G1 & _) & _). split; [exact G1|].
  intros q I. unfold orbit_write, write_group, h5_create. destruct W as [W1 W2]. unfold taken in W2. rewrite W1, W2. cbn [andb negb snd]. unfold ds.
  apply fold_columns_empty.
  - intros c J. apply in_map_iff in J as (a & <- & _). destruct a as [[[[n u] ty] k] q']. unfold writeset. rewrite U. destruct ty; reflexivity.
  - intros c J. cbn. apply orb_false_iff in W2 as [Kg Kd]. now apply T.
  - rewrite map_map. erewrite map_ext by apply cname_writeset. apply orbit_names. now apply in_map.
Qed.

(** ** Transport coefficients *)
Theorem transcoef_written f run name c rows : tree f -> rows_of (c_len c) (fun i => (0 < c_id c i)%Z) rows ->
  (fst (transcoef_write f run name c) = true <-> writable f run name) /\
  (writable f run name -> rows <> [] -> let g := (run ++ [name])%list in let f' := snd (transcoef_write f run name c) in
   written f f' g ["ids"; "k"; "d"] /\ holds_int f' g "ids" rows (c_id c) /\ holds f' g "k" rows (c_K c) /\ holds f' g "d" rows (c_D c) /\
   unit_of f' g "k" = Some (if c_rho c then "1/s" else "m/s") /\ unit_of f' g "d" = Some (if c_rho c then "1/s" else "m^2/s")).
Proof.
  intros T Rw. assert (E : rows = coef_use c).
  { eapply rows_unique; [exact Rw|]. split; [apply sorted_filter, sorted_seq|]. intros i. unfold coef_use. rewrite filter_In, in_seq, Z.ltb_lt. cbn. intuition lia. }
  unfold transcoef_write.
  assert (N : NoDup (map cname (coef_columns c))) by (cbn; repeat constructor; cbn; intuition discriminate).
  destruct (write_group_spec f run name (coef_columns c) T N) as (A & _ & C). split; [exact A|].
  intros W Ne. cbv zeta. specialize (C W). cbv zeta in C. set (f' := snd (write_group f run name (coef_columns c))) in *.
  destruct C as (G & C). split; [exact G|].
  assert (Len : List.length (coef_use c) <> 0%nat) by (rewrite <- E; destruct rows; [congruence|discriminate]).
  destruct (C ("ids", "1", DInt (map (c_id c) (coef_use c)))) as [I1 I2]; [now left|cbn; now rewrite map_length|].
  destruct (C ("k", if c_rho c then "1/s" else "m/s", DReal (map (c_K c) (coef_use c)))) as [K1 K2]; [right; now left|cbn; now rewrite map_length|].
  destruct (C ("d", if c_rho c then "1/s" else "m^2/s", DReal (map (c_D c) (coef_use c)))) as [D1 D2]; [right; right; now left|cbn; now rewrite map_length|].
  cbn [cname cunit cdata fst snd] in *. rewrite E. split; [|split; [|split; [|split; [exact K2|exact D2]]]].
  - split; [exact I2|]. eexists. split; [exact I1|]. now apply F2mapz.
  - eexists _, 1, _. split; [exact K2|]. split; [apply si1; destruct (c_rho c); cbn; tauto|]. split; [exact K1|]. apply F2map. intros; ring.
  - eexists _, 1, _. split; [exact D2|]. split; [apply si1; destruct (c_rho c); cbn; tauto|]. split; [exact D1|]. apply F2map. intros; ring.
Qed.

(** ** Histograms in the file *)
(** the coordinate of a charge axis is the charge in units of e; all other coordinates are in SI *)
Definition coord_unit (u : string) : option R := if String.eqb u "e" then Some 1 else si u.
(** bin [i] of an axis of the file contains the coordinate [x] *)
Definition in_bin (e : string * string * list R) (i : Z) (x : R) : Prop :=
  exists c a b, coord_unit (snd (fst e)) = Some c /\ (0 <= i)%Z /\ nth_error (snd e) (Z.to_nat i) = Some a /\ nth_error (snd e) (S (Z.to_nat i)) = Some b /\ a * c <= x < b * c.
(** a reader looks up the value at the point [x]: first ordinate, C order *)
Definition looks_up (F : histfile) (x : list R) (v : R) : Prop :=
  exists d, Forall2 (fun e p => in_bin e (fst p) (snd p)) (hf_edges F) (combine d x) /\ List.length d = List.length x /\ v = hf_ord F (flat (hf_dims F) (0%Z :: d)).
(** the edges cover the axis *)
Definition covers (e : string * string * list R) (a : axis) : Prop :=
  exists c, coord_unit (snd (fst e)) = Some c /\ Z.of_nat (List.length (snd e)) = (an a + 1)%Z /\
    nth_error (snd e) 0 = Some (amin a / c) /\ nth_error (snd e) (Z.to_nat (an a)) = Some (amax a / c) /\ 0 < c.
Definition good_axis (a : axis) : Prop := amin a < amax a /\ (0 < an a)%Z.
Definition linear (s : (R -> R) * string * string) : Prop :=
  exists c, 0 < c /\ coord_unit (snd (fst s)) = Some c /\ forall x, fst (fst s) x = x / c.
Definition axis_edges (s : (R -> R) * string * string) (a : axis) : string * string * list R :=
  (snd s, snd (fst s), edges (axis_out (fst (fst s)) (snd (fst s)) (snd s) a)).
Lemma edges_nth ab j : (j <= Z.to_nat (a_n ab))%nat -> nth_error (edges ab) j = Some (a_min ab + INR j * ((a_max ab - a_min ab) / IZR (a_n ab))).
Proof.
  intros H. unfold edges. rewrite nth_error_map, nth_error_nth' with (d := 0%nat) by (rewrite seq_length; lia). rewrite seq_nth by lia. reflexivity.
Qed.
Lemma edges_none ab j : (Z.to_nat (a_n ab) < j)%nat -> nth_error (edges ab) j = None.
Proof. intros H. apply nth_error_None. unfold edges. rewrite map_length, seq_length. lia. Qed.
Lemma axis_covers s a : linear s -> good_axis a -> covers (axis_edges s a) a.
Proof.
  intros (c & C & U & L) [G N]. exists c. cbn [axis_edges fst snd]. split; [exact U|]. assert (NP : 0 < IZR (an a)) by now apply IZR_lt.
  split; [unfold edges; rewrite map_length, seq_length; cbn; lia|].
  rewrite !edges_nth by (cbn; lia). cbn [a_n a_min a_max axis_out]. rewrite !L. split; [f_equal; cbn; field; lra|]. split; [|exact C].
  rewrite INR_IZR_INZ, Z2Nat.id by lia. f_equal. field. split; lra.
Qed.
Lemma axis_bin s a i x : linear s -> good_axis a -> (in_bin (axis_edges s a) i x <-> (0 <= i < an a)%Z /\ bin a x = i).
Proof.
  intros (c & C & U & L) [G N]. assert (NP : 0 < IZR (an a)) by now apply IZR_lt.
  assert (E : forall k, (amin a / c + IZR k * ((amax a / c - amin a / c) / IZR (an a))) * c = amin a + IZR k * width a) by (intros; unfold width; field; lra).
  unfold in_bin. cbn [axis_edges fst snd]. rewrite bin_spec by assumption. split.
  - intros (c' & a' & b' & U' & P & A & B & X). rewrite U in U'. injection U' as <-.
    assert (H : (S (Z.to_nat i) <= Z.to_nat (an a))%nat).
    { destruct (le_lt_dec (S (Z.to_nat i)) (Z.to_nat (an a))) as [|K]; [assumption|]. rewrite edges_none in B by (cbn; lia). discriminate. }
    rewrite edges_nth in A, B by (cbn; lia). cbn [a_n a_min a_max axis_out] in A, B. rewrite !L in A, B.
    rewrite INR_IZR_INZ in A, B. rewrite Z2Nat.id in A by lia. replace (Z.of_nat (S (Z.to_nat i))) with (i + 1)%Z in B by lia.
    injection A as <-. injection B as <-. rewrite !E in X. split; [lia|exact X].
  - intros [I X]. exists c. eexists _, _. split; [exact U|]. split; [lia|]. rewrite !edges_nth by (cbn; lia). split; [reflexivity|]. split; [reflexivity|].
    cbn [a_n a_min a_max axis_out]. rewrite !L, !INR_IZR_INZ. rewrite Z2Nat.id by lia. replace (Z.of_nat (S (Z.to_nat i))) with (i + 1)%Z by lia. rewrite !E. exact X.
Qed.
Definition write_axes (l : list ((R -> R) * string * string * axis)) (u : string) (h : Z -> R) : histfile :=
  histogram_write (map (fun p => let '(conv, unit, name, a) := p in axis_out conv unit name a) l) u h.
Lemma write_axes_edges l u h : hf_edges (write_axes l u h) = map (fun p => axis_edges (fst p) (snd p)) l.
Proof. unfold write_axes, histogram_write. cbn. rewrite map_map. apply map_ext. intros [[[cv un] na] a]. reflexivity. Qed.
Lemma write_axes_dims l u h : hf_dims (write_axes l u h) = (1 :: map an (map snd l))%Z.
Proof. unfold write_axes, histogram_write. cbn. f_equal. rewrite !map_map. apply map_ext. intros [[[cv un] na] a]. reflexivity. Qed.
Lemma flat_one n d : flat (1%Z :: n) (0%Z :: d) = flat n d.
Proof. cbn [flat]. lia. Qed.
Lemma lookup_bins l : Forall (fun p => linear (fst p) /\ good_axis (snd p)) l -> forall d x, List.length x = List.length l -> List.length d = List.length x ->
  (Forall2 (fun e p => in_bin e (fst p) (snd p)) (map (fun p => axis_edges (fst p) (snd p)) l) (combine d x) <-> d = bins (map snd l) x /\ inrange (map an (map snd l)) d).
Proof.
  induction 1 as [|p l [L G] F IH]; intros d x Lx Ld; destruct x as [|v x]; try discriminate; destruct d as [|i d]; try discriminate; cbn [map combine].
  - unfold bins, inrange. cbn. split; [intros _; split; [reflexivity|constructor]|intros _; constructor].
  - specialize (IH d x ltac:(cbn in *; lia) ltac:(cbn in *; lia)). unfold bins, inrange in *. cbn [map combine fst snd]. split.
    + intros X. inversion_clear X as [|? ? ? ? A B]. cbn [fst snd] in A. apply axis_bin in A as [A1 A2]; [|assumption..]. apply IH in B as [B1 B2].
      split; [rewrite A2; f_equal; exact B1|constructor; assumption].
    + intros [E X]. injection E as E1 E2. inversion_clear X as [|? ? ? ? A B]. constructor; [apply axis_bin; auto|apply IH; auto].
Qed.
Lemma write_axes_lookup l u h x v : Forall (fun p => linear (fst p) /\ good_axis (snd p)) l -> List.length x = List.length l ->
  (looks_up (write_axes l u h) x v <-> inrange (map an (map snd l)) (bins (map snd l) x) /\ v = h (flat (map an (map snd l)) (bins (map snd l) x))).
Proof.
  intros F L. unfold looks_up. rewrite write_axes_edges, write_axes_dims. split.
  - intros (d & X & Ld & ->). apply lookup_bins in X as [E I]; [|assumption..]. rewrite <- E. split; [exact I|]. now rewrite flat_one.
  - intros [I ->]. exists (bins (map snd l) x). assert (K : List.length (bins (map snd l) x) = List.length x).
    { apply inrange_len in I. rewrite I, !map_length. congruence. }
    split; [apply lookup_bins; auto|]. split; [exact K|]. now rewrite flat_one.
Qed.
Lemma linear_asis u n : coord_unit u = Some 1 -> linear (asis, u, n).
Proof. intros H. exists 1. split; [lra|]. split; [exact H|]. intros x. cbn. unfold asis. field. Qed.
Lemma linear_deg n : linear (rad2deg, "deg", n).
Proof. exists (PI / 180). assert (P := PI_RGT_0). split; [lra|]. split; [reflexivity|]. intros x. cbn. unfold rad2deg. field. lra. Qed.
Lemma linear_e u n : u = "eV" \/ u = "eV*s" \/ u = "eV/T" -> linear (by_e, u, n).
Proof. intros H. exists CONST_E. assert (P := E_pos). split; [exact P|]. split; [destruct H as [->|[->| ->]]; reflexivity|]. reflexivity. Qed.
Ltac lin := first [apply linear_deg | apply linear_asis; reflexivity | apply linear_e; tauto].
Lemma dist_linear t : Forall linear (dist_axes t).
Proof. destruct t; repeat (apply Forall_cons || apply Forall_nil); lin. Qed.
Lemma snd_combine {A B} (a : list A) : forall b : list B, List.length a = List.length b -> map snd (combine a b) = b.
Proof. induction a; intros [|y b] H; cbn in *; try discriminate; auto. f_equal. auto. Qed.
Lemma combine_Forall {A B} (P : A -> Prop) (Q : B -> Prop) a b : Forall P a -> Forall Q b -> Forall (fun p => P (fst p) /\ Q (snd p)) (combine a b).
Proof. intros H. revert b. induction H; intros b K; cbn; [constructor|]. destruct K; constructor; auto. Qed.
Lemma dist_len t : List.length (dist_axes t) = naxes t. Proof. destruct t; reflexivity. Qed.
(** a distribution read back from the file: every point of the grid sees the bin it was counted in, every other point none *)
Theorem dist_lookup t ax h x v : wf t ax -> List.length x = naxes t ->
  (looks_up (dist_write t ax h) x v <-> inbox ax x = true /\ v = h (index t ax (bins ax x))).
Proof.
  intros [L G] Lx. change (dist_write t ax h) with (write_axes (combine (dist_axes t) ax) (dist_unit t) h).
  assert (E : map snd (combine (dist_axes t) ax) = ax) by (apply snd_combine; rewrite dist_len; congruence).
  assert (K : List.length (bins ax x) = naxes t) by (unfold bins; rewrite map_length, combine_length; lia).
  rewrite write_axes_lookup; [|apply combine_Forall; [apply dist_linear|exact G]|rewrite combine_length, dist_len; lia].
  rewrite E. rewrite index_flat by assumption. split; intros [A B]; (split; [|exact B]).
  - rewrite <- ingrid_box by exact G. unfold ingrid. apply forallb_forall. intros p I. apply andb_true_iff. rewrite !Z.leb_le.
    clear -A I. revert x A I. induction ax as [|a ax IH]; intros x A I; destruct x as [|y x]; cbn in *; try contradiction.
    inversion_clear A. destruct I as [<-|I]; [cbn; lia|]. eapply IH; eauto.
  - apply ingrid_range; [congruence|]. now rewrite ingrid_box.
Qed.
(** names of the coordinates in index order *)
Definition coord_names (t : dtype) : list string :=
  match t with
  | D5 => ["r"; "phi"; "z"; "ppar"; "pperp"; "time"; "charge"] | D6 => ["r"; "phi"; "z"; "pr"; "pphi"; "pz"; "time"; "charge"]
  | DR5 => ["rho"; "theta"; "phi"; "ppar"; "pperp"; "time"; "charge"] | DR6 => ["rho"; "theta"; "phi"; "pr"; "pphi"; "pz"; "time"; "charge"]
  | DCOM => ["mu"; "ekin"; "ptor"] end.
Theorem dist_edges t ax h : wf t ax -> Forall2 covers (hf_edges (dist_write t ax h)) ax /\ map (fun e => fst (fst e)) (hf_edges (dist_write t ax h)) = coord_names t.
Proof.
  intros [L G]. assert (NM : map snd (dist_axes t) = coord_names t) by (destruct t; reflexivity). rewrite <- NM. clear NM. change (dist_write t ax h) with (write_axes (combine (dist_axes t) ax) (dist_unit t) h). rewrite write_axes_edges.
  assert (Ld : List.length (dist_axes t) = List.length ax) by (rewrite dist_len; congruence). assert (Li := dist_linear t). revert Ld Li G. generalize (dist_axes t). clear L. intros s.
  revert ax. induction s as [|y s IH]; intros [|a ax] Ld Li G; try discriminate; cbn [combine map]; [split; [constructor|reflexivity]|].
  inversion_clear G. inversion_clear Li. destruct (IH ax) as [A B]; [cbn in Ld; lia|assumption..|]. split; [constructor; [now apply axis_covers|exact A]|].
  rewrite B. reflexivity.
Qed.

(** ** The general histogram: axes without bins are left out *)
Definition unused (h : histogram) (i : nat) : bool := Z.eqb (an (h_ax h i)) 0.
Definition used_axes (h : histogram) : list nat := filter (fun i => negb (unused h i)) (seq 0 ALLDIM).
Definition hist_at (i : nat) : (R -> R) * string * string := nth i hist_axes (asis, "", "").
Lemma hist_used h : filter (fun p => negb (Z.eqb (an (snd p)) 0)) (combine hist_axes (map (h_ax h) (seq 0 ALLDIM))) = map (fun i => (hist_at i, h_ax h i)) (used_axes h).
Proof.
  unfold used_axes. assert (E : combine hist_axes (map (h_ax h) (seq 0 ALLDIM)) = map (fun i => (hist_at i, h_ax h i)) (seq 0 ALLDIM)) by reflexivity. rewrite E.
  generalize (seq 0 ALLDIM). induction l as [|i l IH]; [reflexivity|]. cbn [map filter snd]. unfold unused at 1. destruct (Z.eqb (an (h_ax h i)) 0); cbn [negb]; rewrite IH; reflexivity.
Qed.
Lemma flat_filter (n d : nat -> Z) (u : nat -> bool) l : (forall i, u i = true -> n i = 1%Z /\ d i = 0%Z) ->
  prod (map n l) = prod (map n (filter (fun i => negb (u i)) l)) /\ flat (map n l) (map d l) = flat (map n (filter (fun i => negb (u i)) l)) (map d (filter (fun i => negb (u i)) l)).
Proof.
  intros H. induction l as [|i l [I1 I2]]; [split; reflexivity|]. cbn [filter]. destruct (u i) eqn:E; cbn [negb map].
  - destruct (H i E) as [A B]. split; [unfold prod in *; cbn [fold_right]; rewrite A, I1; lia|]. cbn [flat]. rewrite B, I2. lia.
  - split; [unfold prod in *; cbn [fold_right]; now rewrite I1|]. cbn [flat]. now rewrite I1, I2.
Qed.
Lemma hist_linear i : (i < 16)%nat -> i <> 12%nat -> linear (hist_at i).
Proof. intros H D. do 16 (destruct i as [|i]; [try congruence; cbn; lin|]). lia. Qed.
Definition hist_req_ok (req : list (nat * axis)) : Prop := NoDup (map fst req) /\ forall i a, In (i, a) req -> (i < 16)%nat /\ good_axis a.
(** looking up a point gives the bin of the digits of its coordinates *)
Theorem hist_lookup req b x v : hist_req_ok req -> ~ In 12%nat (map fst req) -> let h := hist_init req in
  let coords := map x (used_axes h) in
  (looks_up (hist_write h b) coords v <->
   (forall i a, In (i, a) req -> amin a <= x i < amax a) /\
   v = b (hist_index h (fun i => if unused h i then 0%Z else bin (h_ax h i) (x i)))).
Proof.
  intros [ND OK] N12. cbv zeta. set (h := hist_init req).
  assert (AXI : forall i a, In (i, a) req -> h_ax h i = a).
  { intros i a I. unfold h, hist_init. cbn [h_ax]. now rewrite (hist_axis_once req i a ND I). }
  assert (U : forall i, unused h i = false -> exists a, In (i, a) req).
  { intros i Hu. destruct (in_dec Nat.eq_dec i (map fst req)) as [I|I]; [apply in_map_iff in I as ([j a] & <- & I); eauto|].
    unfold unused, h, hist_init in Hu. cbn [h_ax] in Hu. rewrite (hist_axis_none req i I) in Hu. discriminate. }
  assert (V : forall i a, In (i, a) req -> unused h i = false).
  { intros i a I. unfold unused. rewrite (AXI i a I). destruct (OK i a I) as [_ [_ N]]. apply Z.eqb_neq. lia. }
  assert (M : forall i, In i (used_axes h) <-> (i < 16)%nat /\ unused h i = false).
  { intros i. unfold used_axes. rewrite filter_In, in_seq, negb_true_iff. unfold ALLDIM. intuition lia. }
  set (l := map (fun i => (hist_at i, h_ax h i)) (used_axes h)).
  assert (W : hist_write h b = write_axes l "s/(m^5*kg^2*deg*e)" b) by (unfold hist_write; rewrite hist_used; reflexivity).
  assert (E : map snd l = map (h_ax h) (used_axes h)) by (unfold l; rewrite map_map; reflexivity).
  assert (B : bins (map snd l) (map x (used_axes h)) = map (fun i => bin (h_ax h i) (x i)) (used_axes h)).
  { rewrite E. unfold bins. clear. generalize (used_axes h). intros k. induction k as [|i k IH]; [reflexivity|]. cbn [map combine fst snd]. now rewrite IH. }
  rewrite W, write_axes_lookup; [| |unfold l; now rewrite !map_length].
  2: { apply Forall_forall. intros p I. unfold l in I. apply in_map_iff in I as (i & <- & I). apply M in I as [I1 I2]. cbn [fst snd].
       destruct (U i I2) as (a & Ia). split; [apply hist_linear; [exact I1|intros ->; apply N12; apply in_map_iff; eexists; split; [|exact Ia]; reflexivity]|].
       rewrite (AXI i a Ia). apply (OK i a Ia). }
  rewrite B, E.
  assert (S1 : map an (map (h_ax h) (used_axes h)) = map (fun i => size1 (an (h_ax h i))) (used_axes h)).
  { rewrite map_map. apply map_ext_in. intros i I. apply M in I as [_ I]. unfold unused in I. unfold size1. now rewrite I. }
  assert (FL : flat (map an (map (h_ax h) (used_axes h))) (map (fun i => bin (h_ax h i) (x i)) (used_axes h)) = hist_index h (fun i => if unused h i then 0%Z else bin (h_ax h i) (x i))).
  { assert (HI := hist_index_flat req (fun i => if unused h i then 0%Z else bin (h_ax h i) (x i))). fold h in HI. rewrite HI. clear HI. unfold sizes, digits.
    destruct (flat_filter (fun i => size1 (an (h_ax h i))) (fun i => if unused h i then 0%Z else bin (h_ax h i) (x i)) (unused h) (seq 0 16)) as [_ F].
    { intros i Hu. rewrite Hu. split; [|reflexivity]. unfold unused in Hu. unfold size1. now rewrite Hu. }
    rewrite F, S1. fold (used_axes h). f_equal. apply map_ext_in. intros i I. apply M in I as [_ I]. now rewrite I. }
  rewrite FL. split; intros [A C]; (split; [|exact C]).
  - intros i a I. assert (J : In i (used_axes h)) by (apply M; split; [apply (OK i a I)|apply (V i a I)]). clear -A I J AXI OK.
    assert (K : (0 <= bin (h_ax h i) (x i) < an (h_ax h i))%Z).
    { revert A J. generalize (used_axes h). induction l as [|k l IH]; intros A J; [destruct J|]. cbn [map] in A. inversion_clear A. destruct J as [->|J]; [assumption|auto]. }
    rewrite (AXI i a I) in K. destruct (OK i a I) as (_ & G1 & G2). apply bin_box; [assumption..|lia].
  - assert (K : forall i, In i (used_axes h) -> (0 <= bin (h_ax h i) (x i) < an (h_ax h i))%Z).
    { intros i I. apply M in I as [_ I]. destruct (U i I) as (a & Ia). rewrite (AXI i a Ia). destruct (OK i a Ia) as (_ & G1 & G2).
      assert (X := proj2 (bin_box a (x i) G1 G2) (A i a Ia)). lia. }
    unfold inrange. revert K. generalize (used_axes h). induction l0 as [|k l0 IH]; intros K; cbn [map]; constructor; [apply K; now left|apply IH; intros; apply K; now right].
Qed.
(** enum axis of hist.h *)
Definition hist_names : list string := ["r"; "phi"; "z"; "rho"; "theta"; "ppar"; "pperp"; "pr"; "pphi"; "pz"; "ekin"; "pitch"; "mu"; "ptor"; "time"; "charge"].
Theorem hist_named h b : map (fun e => fst (fst e)) (hf_edges (hist_write h b)) = map (fun i => nth i hist_names "") (used_axes h).
Proof.
  unfold hist_write. rewrite hist_used. change (histogram_write _ ?u b) with (write_axes (map (fun i => (hist_at i, h_ax h i)) (used_axes h)) u b).
  rewrite write_axes_edges, !map_map. apply map_ext_in. intros i I. unfold used_axes in I. apply filter_In in I as [I _]. apply in_seq in I. unfold ALLDIM in I. cbn [fst snd axis_edges].
  do 16 (destruct i as [|i]; [reflexivity|]). lia.
Qed.
(** the axis of magnetic moments keeps its limits in J/T under the unit T/eV *)
Theorem hist_mu_refuted : exists req b, hist_req_ok req /\ let h := hist_init req in
  exists e, In e (hf_edges (hist_write h b)) /\ fst (fst e) = "mu" /\ ~ covers e (h_ax h 12%nat).
Proof.
  exists [(12%nat, AX 0 1 1)], (fun _ => 0). split.
  { split; [repeat constructor; tauto|]. intros i a [E|[]]. injection E as <- <-. split; [lia|]. split; cbn; [lra|lia]. }
  cbv zeta. exists ("mu", "T/eV", edges (axis_out asis "T/eV" "mu" (AX 0 1 1))). split; [now left|]. split; [reflexivity|].
  intros (c & U & _ & _ & X & _). cbn [fst snd] in *. change (coord_unit "T/eV") with (Some (1 / CONST_E)) in U. injection U as <-.
  change (h_ax (hist_init [(12%nat, AX 0 1 1)]) 12) with (AX 0 1 1) in X. rewrite edges_nth in X by (cbn; lia). cbn [an amax amin axis_out a_n a_min a_max] in X. injection X as X.
  unfold asis in X. change (INR (Z.to_nat 1)) with 1 in X. assert (P := E_pos).
  assert (Y : 1 / (1 / CONST_E) = CONST_E) by (field; lra). rewrite Y in X. unfold CONST_E in X. lra.
Qed.

(** ** Units of the densities *)
(** exponents of m, kg, s, deg, e, eV, T *)
Definition dim := list Z.
Definition bases : list string := ["m"; "kg"; "s"; "deg"; "e"; "eV"; "T"].
Definition dzero : dim := map (fun _ => 0%Z) bases.
Definition dadd (a b : dim) : dim := map (fun p => (fst p + snd p)%Z) (combine a b).
Definition dneg (a : dim) : dim := map Z.opp a.
Fixpoint split_at (c : ascii) (s : string) : list string :=
  match s with
  | EmptyString => [""]
  | String a s => if Ascii.eqb a c then "" :: split_at c s else match split_at c s with w :: ws => String a w :: ws | [] => [String a ""] end
  end.
Fixpoint stars (s : string) : string :=
  match s with
  | String "*" (String "*" s) => String "^" (stars s)
  | String "(" s => stars s
  | String ")" s => stars s
  | String a s => String a (stars s)
  | EmptyString => EmptyString
  end.
Definition power (s : string) : option Z :=
  match s with String a "" => let k := (Z.of_nat (nat_of_ascii a) - 48)%Z in if ((0 <=? k) && (k <=? 9))%Z%bool then Some k else None | _ => None end.
Definition factor (s : string) : option dim :=
  let go n k := if String.eqb n "1" then Some dzero else if in_dec string_dec n bases then Some (map (fun b => if String.eqb b n then k else 0%Z) bases) else None in
  match split_at "^" s with [n] => go n 1%Z | [n; p] => match power p with Some k => go n k | None => None end | _ => None end.
Fixpoint factors (l : list string) : option dim :=
  match l with [] => Some dzero | s :: l => match factor s, factors l with Some a, Some b => Some (dadd a b) | _, _ => None end end.
(** [a*b^2/(c*d)]: products, powers and one division; [**] is also a power *)
Definition dim_of (u : string) : option dim :=
  match split_at "/" (stars u) with
  | [n] => factors (split_at "*" n)
  | [n; d] => match factors (split_at "*" n), factors (split_at "*" d) with Some a, Some b => Some (dadd a (dneg b)) | _, _ => None end
  | _ => None
  end.
Fixpoint dim_sum (l : list string) : option dim :=
  match l with [] => Some dzero | u :: l => match dim_of u, dim_sum l with Some a, Some b => Some (dadd a b) | _, _ => None end end.
(** the ordinate times the extents of all axes is a pure number *)
Definition density_unit (F : histfile) : Prop := dim_sum (hf_unit F :: map (fun e => snd (fst e)) (hf_edges F)) = Some dzero.
Theorem density_units t ax h : wf t ax -> (density_unit (dist_write t ax h) <-> t = DR5 \/ t = DR6 \/ t = DCOM).
Proof.
  intros [L _]. unfold density_unit. change (dist_write t ax h) with (write_axes (combine (dist_axes t) ax) (dist_unit t) h). rewrite write_axes_edges.
  replace (map (fun e => snd (fst e)) (map (fun p => axis_edges (fst p) (snd p)) (combine (dist_axes t) ax))) with (map (fun s => snd (fst s)) (dist_axes t)).
  - destruct t; cbn; split; intros H; try tauto; try discriminate; destruct H as [H|[H|H]]; discriminate.
  - assert (Ld : List.length (dist_axes t) = List.length ax) by (rewrite dist_len; congruence). revert Ld. generalize (dist_axes t). clear. intros s. revert ax.
    induction s as [|y s IH]; intros [|a ax] H; try discriminate; [reflexivity|]. cbn [combine map]. rewrite <- IH by (cbn in H; lia). reflexivity.
Qed.
(** from the markers to the file: the value found at a point is the weighted time the markers spent in its cell *)
Theorem dist_measured E0 c0 psi mom t ax calls x v : wf t ax -> List.length x = naxes t ->
  looks_up (dist_write t ax (run_gc E0 c0 psi mom t ax (fun _ => 0) calls)) x v ->
  v = sumif (fun p => g_run (fst p) && incell ax (bins ax x) (coords_gc E0 c0 psi mom t (fst p)))%bool wdt (List.concat calls).
Proof.
  intros W L H. apply dist_lookup in H as [I ->]; [|assumption..]. rewrite gc_bin; [lra|exact W|].
  destruct W as [La G]. apply ingrid_range; [congruence|]. now rewrite ingrid_box.
Qed.
