(** atomic reactions from the file to the rates *)
From Coq Require Import Reals ZArith List String Bool Arith Lia Lra.
From Verif Require Import Deriv AxisModel SplineModel SplineProofs Spl2Model Spl2Proofs Spl3Model Spl3Proofs AtomModel AtomProofs MainModel HdfModel HmkModel HinModel HinProofs HuseModel HuseProofs LwModel AsfModel AsfProofs.
Import ListNotations.
Import ListNotations.
Local Open Scope string_scope.
Local Open Scope R_scope.
(** every reaction of a file is there under the names the file gives it, with the grid of the file; the numbers of its table are taken from the beginning of the data, whichever reaction it is (asigma_loc.c:55) *)
Theorem reactions_from_file : forall f qid c s junk, HinProofs.complete f "/asigma/asigma_loc_XXXXXXXXXX/" qid c s_As -> (forall i, (i < Z.to_nat (intd c "nreac"))%nat -> tabulated c i) ->
  exists res rs, read_input rasigma_loc f qid s = Ok res /\ call_asigma junk res = (rs, false) /\ List.length rs = Z.to_nat (intd c "nreac") /\
  forall i, (i < Z.to_nat (intd c "nreac"))%nat -> exists r, nth_error rs i = Some r /\ named c i r /\ serves c i 0 r.
Proof. exact AsfProofs.reactions_file. Qed.
Print Assumptions reactions_from_file.
(** a reaction is served from its own numbers exactly if they are the same as the first numbers of the file *)
Theorem reaction_right_iff : forall c i r, tabulated c i -> serves c i 0 r -> (serves c i (start c i) r <-> own_numbers c i).
Proof. exact AsfProofs.own_iff. Qed.
Print Assumptions reaction_right_iff.
(** so not every reaction of a file is served from its own numbers *)
Theorem reactions_own_numbers_refuted : ~ all_own.
Proof. exact AsfProofs.all_own_refuted. Qed.
Print Assumptions reactions_own_numbers_refuted.

(** ** The rates *)
(** a cross-section: the natural spline of the last reaction with these names, zero where it is negative; outside the table zero if extrapolation is allowed, an error otherwise *)
Theorem cross_section_from_file : forall f qid c junk rs u i z a zz aa t E x, reactions_of f qid c junk rs -> (forall i, (i < Z.to_nat (intd c "nreac"))%nat -> tabulated c i) ->
  chosen_reac c i z a zz aa t -> curve_of c i -> (1 <= t <= 3)%Z ->
  (energy_in c i E -> exists F, curve_at c i 0 F /\ asigma_eval_sigma u z a zz aa E t x (Some rs) = Some (0%Z, Rmax 0 (F E))) /\
  (~ energy_in c i E -> exists e, asigma_eval_sigma u z a zz aa E t x (Some rs) = Some (e, 0) /\ (e = 0%Z <-> x = true)).
Proof. exact AsfProofs.sigma_file. Qed.
Print Assumptions cross_section_from_file.
(** a rate coefficient against energy and neutral temperature, both converted to electronvolts *)
Theorem rate_from_file : forall f qid c junk rs u i z a zz aa t E Te T0 n x, reactions_of f qid c junk rs -> (forall i, (i < Z.to_nat (intd c "nreac"))%nat -> tabulated c i) ->
  chosen_reac c i z a zz aa t -> sheet_of c i -> (4 <= t <= 6)%Z -> energy_in c i (E / CONST_E) -> temperature_in c i (T0 / CONST_E) ->
  exists F, sheet_at c i 0 F /\ asigma_eval_sigmav u z a zz aa E Te T0 n t x (Some rs) = Some (0%Z, Rmax 0 (F (E / CONST_E) (T0 / CONST_E))).
Proof. exact AsfProofs.sigmav_file. Qed.
Print Assumptions rate_from_file.
(** charge exchange with all neutral species *)
Theorem charge_exchange_from_file : forall f qid c junk rs u z a E T0 x spec ix, reactions_of f qid c junk rs -> (forall i, (i < Z.to_nat (intd c "nreac"))%nat -> tabulated c i) ->
  Forall2 (fun sp i => chosen_reac c i z a (znum sp) (anum sp) 6 /\ sheet_of c i /\ energy_in c i (E / CONST_E) /\ temperature_in c i (T0 / CONST_E)) spec ix ->
  exists vs, Forall2 (fun i v => exists F, sheet_at c i 0 F /\ v = F (E / CONST_E) (T0 / CONST_E)) ix vs /\
    asigma_eval_cx u z a E T0 spec x (Some rs) = Some (0%Z, Rmax 0 (sumR (map (fun '(v, sp) => v * dens sp) (combine vs spec)))).
Proof. exact AsfProofs.cx_file. Qed.
Print Assumptions charge_exchange_from_file.
(** beam stopping with one table for every ion species: the mean of the tables over the electrons the species bring *)
Theorem beam_stopping_from_file : forall f qid c junk rs u z a E m Te x ions ix, reactions_of f qid c junk rs -> (forall i, (i < Z.to_nat (intd c "nreac"))%nat -> tabulated c i) ->
  Forall2 (fun sp i => only_bms c i z (znum sp) /\ solid_of c i /\ energy_in c i (E / CONST_E / IZR a) /\ density_in c i (IZR (znum sp) * dens sp) /\ temperature_in c i (Te / CONST_E)) ions ix ->
  ions <> [] -> sumR (map (fun sp => IZR (znum sp) * dens sp) ions) <> 0 ->
  exists vs, Forall2 (fun '(sp, i) v => exists F, solid_at c i 0 F /\ v = F (E / CONST_E / IZR a) (IZR (znum sp) * dens sp) (Te / CONST_E)) (combine ions ix) vs /\
    asigma_eval_bms u z a E m Te ions x (Some rs) =
      Some (0%Z, Rmax 0 (sumR (map (fun '(v, sp) => v * (IZR (znum sp) * dens sp)) (combine vs ions)) / sumR (map (fun sp => IZR (znum sp) * dens sp) ions))).
Proof. exact AsfProofs.bms_file. Qed.
Print Assumptions beam_stopping_from_file.
(** with two cross-sections in the file, 5 and 6 for the first reaction and 7 and 8 for the second, the second is 5 where the file has 7 *)
Theorem second_cross_section_refuted : forall junk rs u x, reactions_of ac_file "0123456789" ac_c junk rs -> rat ac_c "sigma" (start ac_c 1) = 7 /\ asigma_eval_sigma u 1 1 1 2 0 3 x (Some rs) = Some (0%Z, 5).
Proof. exact AsfProofs.second_sigma. Qed.
Print Assumptions second_cross_section_refuted.

(** ** Examples: one reaction, tabulated against energy and temperature, or against energy, density and temperature *)
Definition one_i (t : Z) (nn : Z) (n : string) : list Z :=
  if existsb (String.eqb n) ["nreac"; "z1"; "a1"; "z2"; "a2"] then [1%Z] else if String.eqb n "reactype" then [t] else if String.eqb n "ndensity" then [nn] else [2%Z].
Definition one_r (l : list R) (n : string) : list R :=
  if existsb (String.eqb n) ["energymin"; "densitymin"; "temperaturemin"] then [0] else if existsb (String.eqb n) ["energymax"; "densitymax"; "temperaturemax"] then [1] else l.
Definition one_file (t nn : Z) (l : list R) : h5 := mkh5 (fun _ => true) (fun _ _ => None)
  (fun p => match p with [_; _; n] => Some (if existsb (String.eqb n) ["nreac"; "z1"; "a1"; "z2"; "a2"; "reactype"; "nenergy"; "ndensity"; "ntemperature"] then DInt (one_i t nn n) else DReal (one_r l n)) | _ => None end).
Definition cx_c : content := mkcontent (one_i 6 1) (one_r [3; 4; 5; 6]).
Definition bms_c : content := mkcontent (one_i 7 2) (one_r [2; 3; 4; 5; 6; 7; 8; 9]).
Example demo_cx_complete : HinProofs.complete (one_file 6 1 [3; 4; 5; 6]) "/asigma/asigma_loc_XXXXXXXXXX/" "0123456789" cx_c s_As.
Proof.
  intros ds b z I. unfold s_As, i0, HinProofs.r0, rr, ii in I. cbn [map app In] in I.
  repeat (destruct I as [I|I]; [injection I as <- <- <-; eexists; split; [reflexivity|]; cbn; repeat split; repeat constructor; lia|]). destruct I.
Qed.
Example demo_bms_complete : HinProofs.complete (one_file 7 2 [2; 3; 4; 5; 6; 7; 8; 9]) "/asigma/asigma_loc_XXXXXXXXXX/" "0123456789" bms_c s_As.
Proof.
  intros ds b z I. unfold s_As, i0, HinProofs.r0, rr, ii in I. cbn [map app In] in I.
  repeat (destruct I as [I|I]; [injection I as <- <- <-; eexists; split; [reflexivity|]; cbn; repeat split; repeat constructor; lia|]). destruct I.
Qed.
Lemma cx_sheet : sheet_of cx_c 0.
Proof. split; [cbn; lia|split; [reflexivity|split; [cbn; lia|split; change (0 < 1); lra]]]. Qed.
Lemma bms_solid : solid_of bms_c 0.
Proof. split; [cbn; lia|split; [cbn; lia|split; [cbn; lia|repeat split; change (0 < 1); lra]]]. Qed.
Lemma ev_pos : CONST_E <> 0.
Proof. unfold CONST_E. lra. Qed.
(** hydrogen at 1 eV in neutral hydrogen of temperature 0: number 4 of the table, times the density *)
Example demo_cx junk u s : exists res rs, read_input rasigma_loc (one_file 6 1 [3; 4; 5; 6]) "0123456789" s = Ok res /\ call_asigma junk res = (rs, false) /\
  asigma_eval_cx u 1 1 CONST_E 0 [((1%Z, 1%Z), 10)] false (Some rs) = Some (0%Z, 40).
Proof.
  assert (TB : forall i, (i < Z.to_nat (intd cx_c "nreac"))%nat -> tabulated cx_c i).
  { change (Z.to_nat (intd cx_c "nreac")) with 1%nat. intros i I. assert (i = 0)%nat as -> by lia. right. left. exact cx_sheet. }
  destruct (reactions_from_file _ _ _ s junk demo_cx_complete TB) as (res & rs & RD & CA & _). exists res, rs. split; [exact RD|]. split; [exact CA|].
  assert (RO : reactions_of (one_file 6 1 [3; 4; 5; 6]) "0123456789" cx_c junk rs) by (split; [exact demo_cx_complete|exists s, res, false; auto]).
  assert (E1 : CONST_E / CONST_E = 1) by (field; apply ev_pos). assert (E0 : 0 / CONST_E = 0) by (field; apply ev_pos).
  destruct (charge_exchange_from_file _ _ _ _ _ u 1 1 CONST_E 0 false [((1%Z, 1%Z), 10)] [0%nat] RO TB) as (vs & FV & EV).
  - constructor; [|constructor]. split; [|split; [exact cx_sheet|]].
    + split; [cbn; lia|]. split; [repeat split|]. change (Z.to_nat (intd cx_c "nreac")) with 1%nat. intros k K. lia.
    + rewrite E1, E0. split; [change (0 <= 1 <= 1)|change (0 <= 0 <= 1)]; lra.
  - rewrite EV. inversion FV as [|? v ? ? (F & (Fx & Fy & Fxx & Fyy & Fxy & I & _) & V) FN]; subst. inversion FN; subst. rewrite E1, E0. specialize (I 1%nat 0%nat ltac:(cbn; lia) ltac:(cbn; lia)).
    change (F (0 + INR 1 * ((1 - 0) / INR 1)) (0 + INR 0 * ((1 - 0) / INR 1)) = 4) in I. cbn [INR] in I. replace (0 + 1 * ((1 - 0) / 1)) with 1 in I by field. replace (0 + 0 * ((1 - 0) / 1)) with 0 in I by field.
    rewrite I. unfold sumR. cbn [map combine fold_right]. unfold dens. cbn [snd]. replace (4 * 10 + 0) with 40 by ring. rewrite Rmax_right by lra. reflexivity.
Qed.
(** beam stopping at 1 eV, electron density 1 and temperature 0: number 5 of the table (energy fastest, then density) *)
Example demo_bms junk u m s : exists res rs, read_input rasigma_loc (one_file 7 2 [2; 3; 4; 5; 6; 7; 8; 9]) "0123456789" s = Ok res /\ call_asigma junk res = (rs, false) /\
  asigma_eval_bms u 1 1 CONST_E m 0 [((2%Z, 1%Z), 1)] false (Some rs) = Some (0%Z, 5).
Proof.
  assert (TB : forall i, (i < Z.to_nat (intd bms_c "nreac"))%nat -> tabulated bms_c i).
  { change (Z.to_nat (intd bms_c "nreac")) with 1%nat. intros i I. assert (i = 0)%nat as -> by lia. right. right. exact bms_solid. }
  destruct (reactions_from_file _ _ _ s junk demo_bms_complete TB) as (res & rs & RD & CA & _). exists res, rs. split; [exact RD|]. split; [exact CA|].
  assert (RO : reactions_of (one_file 7 2 [2; 3; 4; 5; 6; 7; 8; 9]) "0123456789" bms_c junk rs) by (split; [exact demo_bms_complete|exists s, res, false; auto]).
  assert (E1 : CONST_E / CONST_E / 1 = 1) by (field; apply ev_pos). assert (E0 : 0 / CONST_E = 0) by (field; apply ev_pos).
  destruct (beam_stopping_from_file _ _ _ _ _ u 1 1 CONST_E m 0 false [((2%Z, 1%Z), 1)] [0%nat] RO TB) as (vs & FV & EV).
  - constructor; [|constructor]. unfold znum, dens. cbn [fst snd]. split; [|split; [exact bms_solid|]].
    + split; [cbn; lia|]. split; [repeat split|]. change (Z.to_nat (intd bms_c "nreac")) with 1%nat. intros k K. lia.
    + rewrite E1, E0. split; [change (0 <= 1 <= 1)|split; [change (0 <= 1 * 1 <= 1)|change (0 <= 0 <= 1)]]; lra.
  - discriminate.
  - unfold sumR, znum, dens. cbn. lra.
  - rewrite EV. cbn [combine] in FV. inversion FV as [|? v ? ? HV FN]; subst. cbv beta iota in HV. destruct HV as (F & (Fx & Fy & Fz & Fxx & Fyy & Fzz & Fxy & Fxz & Fyz & I & _) & V). inversion FN; subst.
    unfold znum, dens. cbn [fst snd]. rewrite E1, E0. specialize (I 1%nat 1%nat 0%nat ltac:(cbn; lia) ltac:(cbn; lia) ltac:(cbn; lia)).
    change (F (0 + INR 1 * ((1 - 0) / INR 1)) (0 + INR 1 * ((1 - 0) / INR 1)) (0 + INR 0 * ((1 - 0) / INR 1)) = 5) in I. cbn [INR] in I. replace (0 + 1 * ((1 - 0) / 1)) with 1 in I by field. replace (0 + 0 * ((1 - 0) / 1)) with 0 in I by field.
    replace (1 * 1) with 1 by ring. rewrite I. unfold sumR. cbn [map combine fold_right]. unfold znum, dens. cbn [fst snd]. replace ((5 * (1 * 1) + 0) / (1 * 1 + 0)) with 5 by field. rewrite Rmax_right by lra. reflexivity.
Qed.
