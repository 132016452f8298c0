From Coq Require Import Reals ZArith List String DecimalString Bool Lia Lra.
Import ListNotations.
From Verif Require Import MainModel HdfModel HmkModel HinModel HinProofs HuseProofs NbiModel HnbiModel.
Local Open Scope string_scope.
Local Open Scope R_scope.

(** ** Specification *)
Definition injector_group (i : nat) : string := "/nbi/nbi_XXXXXXXXXX/inj" ++ NilEmpty.string_of_uint (Nat.to_uint (S i)) ++ "/".
Definition s_injector : shape := [i0 "ids"; i0 "nbeamlet"; r0 "power"; r0 "energy"; ("efrac", false, Prod 3 []); r0 "divh"; r0 "divv"; r0 "divhalofrac"; r0 "divhaloh"; r0 "divhalov";
  i0 "anum"; i0 "znum"; r0 "mass"; rr "beamletx" ["nbeamlet"]; rr "beamlety" ["nbeamlet"]; rr "beamletz" ["nbeamlet"]; rr "beamletdx" ["nbeamlet"]; rr "beamletdy" ["nbeamlet"]; rr "beamletdz" ["nbeamlet"]].
(** a group with n injectors *)
Definition nbi_complete (f : h5) (qid : string) (n : nat) (c : nat -> content) : Prop :=
  found_qid f "/nbi/nbi_XXXXXXXXXX/" qid = true /\ (exists d, lookup f "/nbi/nbi_XXXXXXXXXX/ninj" qid = Some d /\ as_ints d = [Z.of_nat n]) /\
  forall i, (i < n)%nat -> complete f (injector_group i) qid (c i) s_injector /\ (0 <= intd (c i) "nbeamlet")%Z.
Record injector_of (c : content) (id : Z) (x : injector) : Prop := {
  io_id : id = intd c "ids"; io_anum : ianum x = intd c "anum"; io_znum : iznum x = intd c "znum";
  io_mass : imass x = reald c "mass" * 1.660538921e-27; io_power : power x = reald c "power"; io_energy : energy x = reald c "energy" * 1.602176565e-19;
  io_efrac : [ef0 x; ef1 x; ef2 x] = cr c "efrac";
  io_div : div_h x = reald c "divh" /\ div_v x = reald c "divv"; io_frac : halo_frac x = reald c "divhalofrac";
  io_halo : reald c "divhalofrac" <> 0 -> halo_h x = reald c "divhaloh" /\ halo_v x = reald c "divhalov";
  io_nohalo : reald c "divhalofrac" = 0 -> 0 < halo_h x /\ 0 < halo_v x;
  io_n : Z.of_nat (nbl (ibl x)) = intd c "nbeamlet";
  io_beamlets : forall j, (j < nbl (ibl x))%nat -> let at_ ds := nth j (cr c ds) 0 in
    bx (ibl x) j = at_ "beamletx" /\ byy (ibl x) j = at_ "beamlety" /\ bz (ibl x) j = at_ "beamletz" /\
    bdx (ibl x) j = at_ "beamletdx" /\ bdy (ibl x) j = at_ "beamletdy" /\ bdz (ibl x) j = at_ "beamletdz" }.

(** ** Proofs *)
Lemma sapp_assoc a b c : (a ++ b) ++ c = a ++ b ++ c.
Proof. induction a as [|x a IH]; cbn; [reflexivity|now rewrite IH]. Qed.
Lemma inj_path_eq i ds : inj_path i ds = injector_group i ++ ds.
Proof. unfold inj_path, injector_group, NBIPATH. rewrite Nat.add_1_r. cbn [append]. rewrite !sapp_assoc. cbn [append]. reflexivity. Qed.

Lemma len1 {A} (l : list A) : Z.of_nat (List.length l) = 1%Z -> exists x, l = [x].
Proof. destruct l as [|x [|]]; cbn; intros; try lia. eauto. Qed.
Section reads.
Context (f : h5) (qid : string) (c : nat -> content).
Lemma int1_ok i ds : complete f (injector_group i) qid (c i) s_injector -> In (i0 ds) s_injector -> int1 f qid (inj_path i ds) = Ok (intd (c i) ds).
Proof.
  intros C I. unfold i0 in I. destruct (C _ _ _ I) as (d & L & A & B & E). unfold int1, read_int. rewrite inj_path_eq, L, A. change (entries (c i) (Prod 1 [])) with 1%Z in E.
  unfold intd. destruct (len1 _ E) as [x X]. rewrite X in *. cbn. inversion B; subst. now rewrite i32_id.
Qed.
Lemma reals_ok i ds z n : complete f (injector_group i) qid (c i) s_injector -> In (ds, false, z) s_injector -> entries (c i) z = Z.of_nat n ->
  read_double f (inj_path i ds) qid n = Ok (cr (c i) ds) /\ List.length (cr (c i) ds) = n.
Proof.
  intros C I Z. destruct (C _ _ _ I) as (d & L & A & E). unfold read_double. rewrite inj_path_eq, L, A. rewrite Z in E. apply Nat2Z.inj in E. split; [|exact E].
  unfold exact. rewrite E, Nat.eqb_refl. reflexivity.
Qed.
Lemma real1_ok i ds : complete f (injector_group i) qid (c i) s_injector -> In (r0 ds) s_injector -> real1 f qid (inj_path i ds) = Ok (reald (c i) ds).
Proof.
  intros C I. unfold real1. destruct (reals_ok i ds (Prod 1 []) 1 C I eq_refl) as [R _]. now rewrite R.
Qed.
Definition raw_of (c : content) : raw := mkraw (intd c "ids") (intd c "nbeamlet") (reald c "power") (reald c "energy" * 1.602176565e-19) (cr c "efrac") (reald c "divh") (reald c "divv")
  (reald c "divhalofrac") (reald c "divhaloh") (reald c "divhalov") (intd c "anum") (intd c "znum") (reald c "mass" * 1.660538921e-27).
Ltac mem := cbn [s_injector In]; tauto.
Lemma read_raw_ok i : complete f (injector_group i) qid (c i) s_injector -> (0 <= intd (c i) "nbeamlet")%Z -> read_raw f qid i = Ok (raw_of (c i)).
Proof.
  intros C N. unfold read_raw. rewrite !int1_ok, !real1_ok by (first [exact C | mem]).
  destruct (reals_ok i "efrac" (Prod 3 []) 3 C) as [E _]; [mem|reflexivity|]. rewrite E. cbn [bind].
  destruct (Z.ltb_spec (intd (c i) "nbeamlet") 0); [lia|reflexivity].
Qed.
Lemma read_raws_ok n : forall i, (forall j, (j < n)%nat -> complete f (injector_group (i + j)) qid (c (i + j)%nat) s_injector /\ (0 <= intd (c (i + j)%nat) "nbeamlet")%Z) ->
  read_raws f qid i n = Ok (map (fun j => raw_of (c j)) (seq i n)).
Proof.
  induction n as [|n IH]; intros i H; cbn [read_raws seq map]; [reflexivity|].
  destruct (H 0%nat ltac:(lia)) as [C N]. rewrite Nat.add_0_r in *. rewrite (read_raw_ok i C N). cbn [bind]. rewrite IH; [reflexivity|].
  intros j J. destruct (H (S j) ltac:(lia)) as [A B]. rewrite <- plus_n_Sm in *. split; assumption.
Qed.
Definition names6 : list string := ["beamletx"; "beamlety"; "beamletz"; "beamletdx"; "beamletdy"; "beamletdz"].
Lemma read_at_ok i ds n off m : read_double f (inj_path i ds) qid n = Ok (cr (c i) ds) -> read_at f qid (inj_path i ds) n off m = Ok (blit m off (cr (c i) ds)).
Proof. intros R. unfold read_at. now rewrite R. Qed.
Lemma blit_in m off l k : (off <= k < off + List.length l)%nat -> blit m off l k = nth (k - off) l 0.
Proof. intros H. unfold blit. destruct (Nat.leb_spec off k); [|lia]. destruct (Nat.ltb_spec k (off + List.length l)); [reflexivity|lia]. Qed.
Lemma blit_out m off l k : (k < off \/ off + List.length l <= k)%nat -> blit m off l k = m k.
Proof. intros H. unfold blit. destruct (Nat.leb_spec off k), (Nat.ltb_spec k (off + List.length l)); try reflexivity; lia. Qed.
Definition block_ok (c : content) (n : nat) (b : beamlets) : Prop := nbl b = n /\ forall t, (t < n)%nat ->
  bx b t = nth t (cr c "beamletx") 0 /\ byy b t = nth t (cr c "beamlety") 0 /\ bz b t = nth t (cr c "beamletz") 0 /\
  bdx b t = nth t (cr c "beamletdx") 0 /\ bdy b t = nth t (cr c "beamletdy") 0 /\ bdz b t = nth t (cr c "beamletdz") 0.
Lemma read_beamlets_ok ns : forall i idx m,
  (forall j n, nth_error ns j = Some n -> forall ds, In ds names6 -> read_double f (inj_path (i + j) ds) qid n = Ok (cr (c (i + j)%nat) ds) /\ List.length (cr (c (i + j)%nat) ds) = n) ->
  exists m', read_beamlets f qid i idx ns m = Ok m' /\ (forall k, (k < idx)%nat -> m' k = m k) /\
    forall j n, nth_error ns j = Some n -> exists b, nth_error (nbi_beamlets m' idx ns) j = Some b /\ block_ok (c (i + j)%nat) n b.
Proof.
  induction ns as [|n ns IH]; intros i idx m H; cbn [read_beamlets nbi_beamlets].
  - exists m. split; [reflexivity|]. split; [reflexivity|]. intros [|j] n E; discriminate.
  - pose proof (H 0%nat n eq_refl) as H0. rewrite Nat.add_0_r in H0.
    destruct (H0 "beamletx" ltac:(cbn; tauto)) as [R1 L1]. destruct (H0 "beamlety" ltac:(cbn; tauto)) as [R2 L2]. destruct (H0 "beamletz" ltac:(cbn; tauto)) as [R3 L3].
    destruct (H0 "beamletdx" ltac:(cbn; tauto)) as [R4 L4]. destruct (H0 "beamletdy" ltac:(cbn; tauto)) as [R5 L5]. destruct (H0 "beamletdz" ltac:(cbn; tauto)) as [R6 L6].
    rewrite (read_at_ok _ _ _ _ _ R1). cbn [bind]. rewrite (read_at_ok _ _ _ _ _ R2). cbn [bind]. rewrite (read_at_ok _ _ _ _ _ R3). cbn [bind].
    rewrite (read_at_ok _ _ _ _ _ R4). cbn [bind]. rewrite (read_at_ok _ _ _ _ _ R5). cbn [bind]. rewrite (read_at_ok _ _ _ _ _ R6). cbn [bind].
    match goal with |- context [read_beamlets f qid (S i) (idx + 6 * n) ns ?x] => set (m6 := x) end.
    destruct (IH (S i) (idx + 6 * n)%nat m6) as (m' & E & P & B).
    { intros j k K. specialize (H (S j) k K). rewrite <- plus_n_Sm in H. exact H. }
    exists m'. split; [exact E|]. split.
    + intros k K. rewrite P by lia. unfold m6. rewrite !blit_out by lia. reflexivity.
    + intros [|j] k K.
      * injection K as <-. eexists. split; [reflexivity|]. rewrite Nat.add_0_r. split; [reflexivity|]. intros t T. cbn [bx byy bz bdx bdy bdz].
        rewrite !P by lia. unfold m6. repeat split.
        -- rewrite blit_out, blit_out, blit_out, blit_out, blit_out, blit_in by lia. f_equal. lia.
        -- rewrite blit_out, blit_out, blit_out, blit_out, blit_in by lia. f_equal. lia.
        -- rewrite blit_out, blit_out, blit_out, blit_in by lia. f_equal. lia.
        -- rewrite blit_out, blit_out, blit_in by lia. f_equal. lia.
        -- rewrite blit_out, blit_in by lia. f_equal. lia.
        -- rewrite blit_in by lia. f_equal. lia.
      * destruct (B j k K) as (b & X & Y). exists b. split; [exact X|]. rewrite <- plus_n_Sm. exact Y.
Qed.
End reads.

Lemma flat3 {A} (g : nat -> list A) d k : (k < 3)%nat -> forall n i j, (forall t, (t < n)%nat -> List.length (g (j + t)%nat) = 3%nat) -> (i < n)%nat ->
  nth (3 * i + k) (flat_map g (seq j n)) d = nth k (g (j + i)%nat) d.
Proof.
  intros K. induction n as [|n IH]; intros i j L I; [lia|]. cbn [seq flat_map]. pose proof (L 0%nat ltac:(lia)) as L0. rewrite Nat.add_0_r in L0. destruct i as [|i].
  - rewrite app_nth1 by lia. rewrite Nat.add_0_r. f_equal.
  - rewrite app_nth2 by lia. rewrite L0. replace (3 * S i + k - 3)%nat with (3 * i + k)%nat by lia. rewrite IH; [rewrite <- plus_n_Sm; reflexivity| |lia].
    intros t T. specialize (L (S t) ltac:(lia)). rewrite <- plus_n_Sm in L. exact L.
Qed.
Lemma flat_map_map {A B C} (g : B -> list C) (h : A -> B) l : flat_map g (map h l) = flat_map (fun x => g (h x)) l.
Proof. induction l; cbn; [reflexivity|now rewrite IHl]. Qed.
Lemma nth_seq {B} (g : nat -> B) d n i : (i < n)%nat -> nth i (map g (seq 0 n)) d = g i.
Proof. intros I. rewrite (nth_indep _ d (g 0%nat)) by (rewrite map_length, seq_length; exact I). rewrite (map_nth g), seq_nth by exact I. reflexivity. Qed.

Theorem nbi_read f qid n c m : (Z.of_nat n <= 2147483647)%Z -> nbi_complete f qid n c ->
  exists l, hdf5_nbi_init f qid m = Ok l /\ List.length l = n /\ forall i id x, nth_error l i = Some (id, x) -> injector_of (c i) id x.
Proof.
  intros N (G & (d & D & DI) & C). unfold hdf5_nbi_init. change (found_qid f NBIPATH qid) with (found_qid f "/nbi/nbi_XXXXXXXXXX/" qid). rewrite G. cbn [negb].
  change (NBIPATH ++ "ninj") with "/nbi/nbi_XXXXXXXXXX/ninj". unfold int1, read_int. rewrite D, DI. cbn [map exact List.length Nat.eqb bind nth]. unfold exact. cbn [List.length Nat.eqb bind nth].
  rewrite i32_id by (unfold is_int; lia). destruct (Z.ltb_spec (Z.of_nat n) 0); [lia|]. rewrite Nat2Z.id.
  rewrite (read_raws_ok f qid c n 0) by exact C. cbn [bind]. rewrite map_map. cbn [w_nbeamlet raw_of].
  destruct (read_beamlets_ok f qid c (map (fun j => Z.to_nat (intd (c j) "nbeamlet")) (seq 0 n)) 0 0 m) as (m' & E & _ & B).
  { intros j k K ds I. rewrite nth_error_map in K. destruct (nth_error (seq 0 n) j) as [q|] eqn:Q; [|discriminate]. injection K as <-.
    assert (J : (j < n)%nat) by (rewrite <- (seq_length n 0); apply nth_error_Some; congruence). assert (q = j). { apply nth_error_nth with (d := 0%nat) in Q. rewrite seq_nth in Q by exact J. cbn in Q. congruence. } subst q.
    cbn [Nat.add]. destruct (C j J) as [Cj Nj]. apply (reals_ok f qid c j ds (Prod 1 ["nbeamlet"])); [exact Cj| |].
    - cbn [names6 In] in I. cbn [s_injector In]. unfold rr. intuition congruence.
    - unfold entries, prodZ. cbn [map fold_right]. unfold intd in *. lia. }
  rewrite E. cbn [bind]. eexists. split; [reflexivity|]. unfold nbi_init. split; [rewrite map_length; apply seq_length|].
  intros i id x X. rewrite nth_error_map in X. destruct (nth_error (seq 0 n) i) as [q|] eqn:Q; [|discriminate].
  assert (J : (i < n)%nat) by (rewrite <- (seq_length n 0); apply nth_error_Some; congruence). assert (q = i). { apply nth_error_nth with (d := 0%nat) in Q. rewrite seq_nth in Q by exact J. cbn in Q. congruence. } subst q. clear Q.
  cbn [option_map] in X. injection X as <- X.
  rewrite !map_map, !nth_seq in X by exact J. rewrite map_map, nth_seq by exact J. cbn [raw_of w_id w_anum w_znum w_mass w_power w_energy w_div_h w_div_v w_halo_v w_halo_h w_halo_frac w_nbeamlet] in *.
  rewrite flat_map_map in X. cbn [raw_of w_efrac] in X.
  assert (L3 : forall t, (t < n)%nat -> List.length (cr (c t) "efrac") = 3%nat).
  { intros t T. destruct (C t T) as [Ct _]. destruct (reals_ok f qid c t "efrac" (Prod 3 []) 3 Ct) as [_ L]; [cbn [s_injector In]; tauto|reflexivity|exact L]. }
  change (i + (i + (i + 0)))%nat with (3 * i)%nat in X. rewrite !(flat3 (fun j => cr (c j) "efrac") 0) in X by (first [lia | exact L3]). cbn [Nat.add] in X.
  destruct (B i (Z.to_nat (intd (c i) "nbeamlet"))) as (b & Y & Hn & Hb).
  { rewrite nth_error_map. rewrite (nth_error_nth' _ 0%nat) by (rewrite seq_length; exact J). rewrite seq_nth by exact J. reflexivity. }
  apply nth_error_nth with (d := BL 0 (fun _ => 0) (fun _ => 0) (fun _ => 0) (fun _ => 0) (fun _ => 0) (fun _ => 0)) in Y. rewrite Y in X. cbn [Nat.add] in Hb.
  destruct (C i J) as [_ Np]. specialize (L3 i J).
  unfold halo_default in X. cbn [halo_frac] in X.
  assert (EF : [nth 0 (cr (c i) "efrac") 0; nth 1 (cr (c i) "efrac") 0; nth 2 (cr (c i) "efrac") 0] = cr (c i) "efrac").
  { clear -L3. destruct (cr (c i) "efrac") as [|a0 [|a1 [|a2 [|]]]]; try discriminate L3. reflexivity. }
  assert (NB : Z.of_nat (nbl b) = intd (c i) "nbeamlet") by (rewrite Hn; lia).
  assert (HB : forall j, (j < nbl b)%nat -> bx b j = nth j (cr (c i) "beamletx") 0 /\ byy b j = nth j (cr (c i) "beamlety") 0 /\ bz b j = nth j (cr (c i) "beamletz") 0 /\
    bdx b j = nth j (cr (c i) "beamletdx") 0 /\ bdy b j = nth j (cr (c i) "beamletdy") 0 /\ bdz b j = nth j (cr (c i) "beamletdz") 0) by (rewrite Hn; exact Hb).
  assert (P10 : 0 < 1e-10) by lra.
  destruct (Req_EM_T (reald (c i) "divhalofrac") 0) as [Z0|Z0]; subst x; constructor; cbn [ianum iznum imass power energy ef0 ef1 ef2 div_h div_v halo_frac halo_h halo_v ibl];
    first [reflexivity | exact EF | exact NB | exact HB | (split; reflexivity) | (intros; split; exact P10) | (intros; exfalso; contradiction) | (intros; split; reflexivity)].
Qed.

(** every dataset is needed *)
Lemma need_int1 f qid i ds z : int1 f qid (inj_path i ds) = Ok z -> exists d, lookup f (injector_group i ++ ds) qid = Some d.
Proof. unfold int1, read_int. rewrite inj_path_eq. destruct lookup as [d|]; [eauto|discriminate]. Qed.
Lemma need_reals f qid i ds n l : read_double f (inj_path i ds) qid n = Ok l -> exists d, lookup f (injector_group i ++ ds) qid = Some d.
Proof. unfold read_double. rewrite inj_path_eq. destruct lookup as [d|]; [eauto|discriminate]. Qed.
Lemma need_real1 f qid i ds z : real1 f qid (inj_path i ds) = Ok z -> exists d, lookup f (injector_group i ++ ds) qid = Some d.
Proof. unfold real1. destruct (read_double f (inj_path i ds) qid 1) eqn:E; try discriminate. intros _. eapply need_reals. exact E. Qed.
Lemma bind_ok {A B} (x : outcome A) (k : A -> outcome B) y : bind x k = Ok y -> exists a, x = Ok a /\ k a = Ok y.
Proof. destruct x; cbn; try discriminate. eauto. Qed.
Definition scalars : list string := ["ids"; "nbeamlet"; "power"; "energy"; "efrac"; "divh"; "divv"; "divhalofrac"; "divhaloh"; "divhalov"; "anum"; "znum"; "mass"].
Lemma read_raw_needs f qid i w : read_raw f qid i = Ok w -> forall ds, In ds scalars -> exists d, lookup f (injector_group i ++ ds) qid = Some d.
Proof.
  unfold read_raw. intros E. repeat (apply bind_ok in E; destruct E as (? & ? & E)).
  intros ds I. cbn [scalars In] in I. repeat (destruct I as [<-|I]; [first [eapply need_int1; eassumption | eapply need_real1; eassumption | eapply need_reals; eassumption]|]). destruct I.
Qed.
Lemma read_raws_needs f qid n : forall i l, read_raws f qid i n = Ok l -> List.length l = n /\ forall j, (j < n)%nat -> forall ds, In ds scalars -> exists d, lookup f (injector_group (i + j) ++ ds) qid = Some d.
Proof.
  induction n as [|n IH]; intros i l E; cbn [read_raws] in E.
  - injection E as <-. split; [reflexivity|]. intros; lia.
  - apply bind_ok in E as (w & W & E). apply bind_ok in E as (l' & L & E). injection E as <-. destruct (IH _ _ L) as [A B]. split; [cbn; now rewrite A|].
    intros [|j] J; [rewrite Nat.add_0_r; eapply read_raw_needs; exact W|]. rewrite <- plus_n_Sm. apply (B j). lia.
Qed.
Lemma read_at_needs f qid i ds n off m m' : read_at f qid (inj_path i ds) n off m = Ok m' -> exists d, lookup f (injector_group i ++ ds) qid = Some d.
Proof. unfold read_at. intros E. apply bind_ok in E as (l & L & _). eapply need_reals. exact L. Qed.
Lemma read_beamlets_needs f qid ns : forall i idx m m', read_beamlets f qid i idx ns m = Ok m' -> forall j, (j < List.length ns)%nat -> forall ds, In ds names6 -> exists d, lookup f (injector_group (i + j) ++ ds) qid = Some d.
Proof.
  induction ns as [|n ns IH]; intros i idx m m' E j J ds I; cbn [List.length] in J; [lia|]. cbn [read_beamlets] in E.
  do 6 (apply bind_ok in E; destruct E as (? & ? & E)). destruct j as [|j].
  - rewrite Nat.add_0_r. cbn [names6 In] in I. repeat (destruct I as [<-|I]; [eapply read_at_needs; eassumption|]). destruct I.
  - rewrite <- plus_n_Sm. apply (IH (S i) _ _ _ E j); [lia|exact I].
Qed.
Theorem nbi_missing f qid m l : hdf5_nbi_init f qid m = Ok l -> forall i, (i < List.length l)%nat -> forall ds b z, In (ds, b, z) s_injector -> exists d, lookup f (injector_group i ++ ds) qid = Some d.
Proof.
  unfold hdf5_nbi_init. destruct (negb _); [discriminate|]. intros E. apply bind_ok in E as (n & _ & E). destruct (n <? 0)%Z; [discriminate|].
  apply bind_ok in E as (ws & W & E). apply bind_ok in E as (m' & M & E). injection E as <-. destruct (read_raws_needs _ _ _ _ _ W) as [L A].
  intros i I ds b z D. unfold nbi_init in I. rewrite map_length, seq_length in I.
  assert (In ds scalars \/ In ds names6) as [X|X].
  { cbn [s_injector In i0 r0 rr] in D. cbn [scalars names6 In]. repeat (destruct D as [D|D]; [injection D as <- _ _; tauto|]). destruct D. }
  - exact (A i I ds X).
  - apply (read_beamlets_needs _ _ _ _ _ _ _ M i); [rewrite map_length; lia|exact X].
Qed.
