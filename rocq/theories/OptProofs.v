From Coq Require Import Reals ZArith List String Bool Lia Lra.
Import ListNotations.
From Verif Require Import MainModel HdfModel HmkModel EndcondModel DistModel HoutModel OptModel.
From Verif Require EndcondProofs HoutProofs.
Local Open Scope string_scope.
Local Open Scope R_scope.

(** ** Specification *)
(** the option [n] is present with the value [v n] *)
Definition good (f : h5) (qid : string) (v : string -> R) (n : string) : Prop :=
  exists d, lookup f ("/options/opt_XXXXXXXXXX/" ++ n) qid = Some d /\ as_reals d = [v n].
(** the array option [n] is present with the values [a n] *)
Definition goodarr (f : h5) (qid : string) (a : string -> list R) (n : string) : Prop :=
  exists d, lookup f ("/options/opt_XXXXXXXXXX/" ++ n) qid = Some d /\ as_reals d = a n.
(** representable as int *)
Definition fits (x : R) : Prop := -2147483649 < x < 2147483648.
(** z is x with the fraction discarded *)
Definition whole (x : R) (z : Z) : Prop := (0 <= x -> IZR z <= x < IZR z + 1) /\ (x <= 0 -> IZR z - 1 < x <= IZR z).
(** a switch is on *)
Definition on_ (x : R) : Prop := x <= -1 \/ 1 <= x.

(** integer options that are always read: member of the struct and name of the option *)
Definition int_tab : list (string * string) :=
  [("sim_mode", "SIM_MODE"); ("enable_ada", "ENABLE_ADAPTIVE"); ("record_mode", "RECORD_MODE");
   ("fix_usrdef_use", "FIXEDSTEP_USE_USERDEFINED"); ("fix_gyrodef_nstep", "FIXEDSTEP_GYRODEFINED");
   ("enable_orbfol", "ENABLE_ORBIT_FOLLOWING"); ("enable_clmbcol", "ENABLE_COULOMB_COLLISIONS"); ("enable_mhd", "ENABLE_MHD");
   ("enable_atomic", "ENABLE_ATOMIC"); ("enable_icrh", "ENABLE_ICRH"); ("enable_aldforce", "ENABLE_ALDFORCE");
   ("disable_gctransform", "DISABLE_FIRSTORDER_GCTRANS"); ("disable_energyccoll", "DISABLE_ENERGY_CCOLL");
   ("disable_pitchccoll", "DISABLE_PITCH_CCOLL"); ("disable_gcdiffccoll", "DISABLE_GCDIFF_CCOLL"); ("reverse_time", "REVERSE_TIME");
   ("dist5D_collect", "ENABLE_DIST_5D"); ("dist6D_collect", "ENABLE_DIST_6D"); ("distrho5D_collect", "ENABLE_DIST_RHO5D");
   ("distrho6D_collect", "ENABLE_DIST_RHO6D"); ("distCOM_collect", "ENABLE_DIST_COM"); ("diagorb_collect", "ENABLE_ORBITWRITE");
   ("diagtrcof_collect", "ENABLE_TRANSCOEF")].
(** real options: member, option and the SI value of the unit of the option *)
Definition real_tab : list (string * string * R) :=
  [("fix_usrdef_val", "FIXEDSTEP_USERDEFINED", 1); ("ada_tol_orbfol", "ADAPTIVE_TOL_ORBIT", 1); ("ada_tol_clmbcol", "ADAPTIVE_TOL_CCOL", 1);
   ("ada_max_drho", "ADAPTIVE_MAX_DRHO", 1); ("ada_max_dphi", "ADAPTIVE_MAX_DPHI", 1); ("endcond_lim_simtime", "ENDCOND_LIM_SIMTIME", 1);
   ("endcond_max_mileage", "ENDCOND_MAX_MILEAGE", 1); ("endcond_max_cputime", "ENDCOND_MAX_CPUTIME", 1);
   ("endcond_max_rho", "ENDCOND_MAX_RHO", 1); ("endcond_min_rho", "ENDCOND_MIN_RHO", 1);
   ("endcond_min_ekin", "ENDCOND_MIN_ENERGY", 1.602176565e-19); ("endcond_min_thermal", "ENDCOND_MIN_THERMAL", 1)].
(** numbers of orbits, stored as angles *)
Definition orb_tab : list (string * string) :=
  [("endcond_max_polorb", "ENDCOND_MAX_POLOIDALORBS"); ("endcond_max_tororb", "ENDCOND_MAX_TOROIDALORBS")].
(** end conditions and the option that selects each *)
Definition end_tab : list (EndcondProofs.cond * string) :=
  [(EndcondProofs.Tlim, "ENDCOND_SIMTIMELIM"); (EndcondProofs.Cpumax, "ENDCOND_CPUTIMELIM"); (EndcondProofs.Rhomin, "ENDCOND_RHOLIM");
   (EndcondProofs.Rhomax, "ENDCOND_RHOLIM"); (EndcondProofs.Emin, "ENDCOND_ENERGYLIM"); (EndcondProofs.Therm, "ENDCOND_ENERGYLIM");
   (EndcondProofs.Wall, "ENDCOND_WALLHIT"); (EndcondProofs.Polmax, "ENDCOND_MAXORBS"); (EndcondProofs.Tormax, "ENDCOND_MAXORBS");
   (EndcondProofs.Neutr, "ENDCOND_NEUTRALIZED"); (EndcondProofs.Ioniz, "ENDCOND_IONIZED")].
Definition base_ints : list string := (map snd int_tab ++ map snd end_tab ++ map snd orb_tab)%list.
Definition base_names : list string := (base_ints ++ map (fun p => snd (fst p)) real_tab)%list.

(** distributions: the switch, and per axis the member and option suffixes and whether the option is in degrees *)
Definition collect (t : dtype) : string :=
  match t with D5 => "ENABLE_DIST_5D" | D6 => "ENABLE_DIST_6D" | DR5 => "ENABLE_DIST_RHO5D" | DR6 => "ENABLE_DIST_RHO6D" | DCOM => "ENABLE_DIST_COM" end.
Definition axis_tab (t : dtype) : list (string * string * bool) :=
  match t with
  | D5 => [("r", "R", false); ("phi", "PHI", true); ("z", "Z", false); ("ppara", "PPA", false); ("pperp", "PPE", false); ("time", "TIME", false); ("q", "CHARGE", false)]
  | D6 => [("r", "R", false); ("phi", "PHI", true); ("z", "Z", false); ("pr", "PR", false); ("pphi", "PPHI", false); ("pz", "PZ", false); ("time", "TIME", false); ("q", "CHARGE", false)]
  | DR5 => [("rho", "RHO", false); ("theta", "THETA", true); ("phi", "PHI", true); ("ppara", "PPA", false); ("pperp", "PPE", false); ("time", "TIME", false); ("q", "CHARGE", false)]
  | DR6 => [("rho", "RHO", false); ("theta", "THETA", true); ("phi", "PHI", true); ("pr", "PR", false); ("pphi", "PPHI", false); ("pz", "PZ", false); ("time", "TIME", false); ("q", "CHARGE", false)]
  | DCOM => [("mu", "MU", false); ("Ekin", "EKIN", false); ("Ptor", "PTOR", false)]
  end.
Definition prefix_ (t : dtype) : string := match t with D5 => "dist5D." | D6 => "dist6D." | DR5 => "distrho5D." | DR6 => "distrho6D." | DCOM => "distCOM." end.
(** the axes in the struct, in the order of the histogram *)
Definition axes_of (t : dtype) (s : sim) : list axis :=
  map (fun p => let k := fst (fst p) in
                AX (reals s (prefix_ t ++ "min_" ++ k)) (reals s (prefix_ t ++ "max_" ++ k)) (ints s (prefix_ t ++ "n_" ++ k))) (axis_tab t).
Definition axis_names (t : dtype) : list string := flat_map (fun p => let n := snd (fst p) in ["DIST_MIN_" ++ n; "DIST_MAX_" ++ n; "DIST_NBIN_" ++ n]) (axis_tab t).
Definition nbin_names (t : dtype) : list string := map (fun p => "DIST_NBIN_" ++ snd (fst p)) (axis_tab t).
Definition unit_of (deg : bool) (x : R) : R := if deg then PI / 180 * x else x.
Definition axis_spec (v : string -> R) (p : string * string * bool) (a : axis) : Prop :=
  let n := snd (fst p) in
  amin a = unit_of (snd p) (v ("DIST_MIN_" ++ n)) /\ amax a = unit_of (snd p) (v ("DIST_MAX_" ++ n)) /\ whole (v ("DIST_NBIN_" ++ n)) (an a).

(** Poincare planes: the values up to the first filler, or none if the first is negative *)
Fixpoint before (filler : R) (l : list R) : list R := match l with [] => [] | x :: t => if Req_EM_T x filler then [] else x :: before filler t end.
Definition planes_spec (filler : R) (l : list R) : list R :=
  match l with x :: _ => if Rlt_dec x 0 then [] else before filler l | [] => [] end.

(** the file holds everything that is needed *)
Record file_ok (f : h5) (qid : string) (v : string -> R) (a : string -> list R) : Prop := {
  ok_base : forall n, In n base_names -> good f qid v n;
  ok_ints : forall n, In n base_ints -> fits (v n);
  ok_orbs : forall n, In n (map snd orb_tab) -> Rabs (v n) < 1073741824;
  ok_dist : forall t, on_ (v (collect t)) ->
    (forall n, In n (axis_names t) -> good f qid v n) /\ (forall n, In n (nbin_names t) -> fits (v n));
  ok_orb : on_ (v "ENABLE_ORBITWRITE") ->
    (forall n, In n ["ORBITWRITE_MODE"; "ORBITWRITE_NPOINT"; "ORBITWRITE_INTERVAL"] -> good f qid v n) /\
    (forall n, In n ["ORBITWRITE_MODE"; "ORBITWRITE_NPOINT"] -> fits (v n)) /\
    (forall n, In n ["ORBITWRITE_TOROIDALANGLES"; "ORBITWRITE_POLOIDALANGLES"; "ORBITWRITE_RADIALDISTANCES"] ->
       goodarr f qid a n /\ (List.length (a n) < 30)%nat);
  ok_coef : on_ (v "ENABLE_TRANSCOEF") ->
    (forall n, In n ["TRANSCOEF_INTERVAL"; "TRANSCOEF_NAVG"; "TRANSCOEF_RECORDRHO"] -> good f qid v n) /\
    (forall n, In n ["TRANSCOEF_NAVG"; "TRANSCOEF_RECORDRHO"] -> fits (v n)) }.

(** the options the end conditions look at *)
Definition endcond_opts (s : sim) : opts :=
  {| active := ints s "endcond_active"; reverse_time := negb (Z.eqb (ints s "reverse_time") 0); sim_mode := ints s "sim_mode";
     lim_simtime := reals s "endcond_lim_simtime"; max_mileage := reals s "endcond_max_mileage"; min_ekin := reals s "endcond_min_ekin";
     min_thermal := reals s "endcond_min_thermal"; max_rho := reals s "endcond_max_rho"; min_rho := reals s "endcond_min_rho";
     max_tororb := reals s "endcond_max_tororb"; max_polorb := reals s "endcond_max_polorb"; max_cputime := reals s "endcond_max_cputime";
     torandpol := negb (Z.eqb (ints s "endcond_torandpol") 0) |}.

(** ** Truncation *)
Lemma ipart x z : IZR z <= x < IZR z + 1 -> Int_part x = z.
Proof. intros H. unfold Int_part. assert (z + 1 = up x)%Z; [|lia]. apply tech_up; rewrite plus_IZR; lra. Qed.
Lemma ftrunc_whole x : whole x (ftrunc x).
Proof.
  unfold ftrunc, whole. destruct (Rlt_dec x 0) as [N|N].
  - destruct (base_Int_part (- x)) as [A B]. rewrite opp_IZR. split; intros; lra.
  - destruct (base_Int_part x) as [A B]. split; intros H; [lra|].
    assert (x = 0) by lra. subst x. assert (Int_part 0 = 0%Z) as -> by (apply ipart; lra). lra.
Qed.
Lemma whole_unique x z : whole x z -> ftrunc x = z.
Proof.
  intros [P Q]. destruct (ftrunc_whole x) as [P' Q']. destruct (Rle_dec 0 x) as [G|G].
  - specialize (P G). specialize (P' G). assert (ftrunc x < z + 1 /\ z < ftrunc x + 1)%Z; [|lia]. split; apply lt_IZR; rewrite plus_IZR; lra.
  - assert (G' : x <= 0) by lra. specialize (Q G'). specialize (Q' G'). assert (ftrunc x < z + 1 /\ z < ftrunc x + 1)%Z; [|lia]. split; apply lt_IZR; rewrite plus_IZR; lra.
Qed.
Lemma ftrunc_range x a b : (a < 0 < b)%Z -> IZR a < x < IZR b -> (a < ftrunc x < b)%Z.
Proof.
  intros Hab H. destruct (ftrunc_whole x) as [P Q]. apply IZR_lt in Hab as [A _] || idtac.
  assert (A : IZR a < 0 < IZR b) by (split; apply IZR_lt; lia).
  destruct (Rle_dec 0 x) as [G|G].
  - specialize (P G). split; [|apply lt_IZR; lra]. assert (0 < ftrunc x + 1)%Z by (apply lt_IZR; rewrite plus_IZR; lra). lia.
  - assert (G' : x <= 0) by lra. specialize (Q G'). split; [apply lt_IZR; lra|]. assert (ftrunc x - 1 < 0)%Z by (apply lt_IZR; rewrite minus_IZR; lra). lia.
Qed.
Lemma fits_in x : fits x -> in_int (ftrunc x) = true.
Proof.
  intros H. assert (G : (-2147483649 < ftrunc x < 2147483648)%Z) by (apply ftrunc_range; [lia|exact H]).
  unfold in_int. apply andb_true_intro. split; [apply Z.leb_le|apply Z.ltb_lt]; lia.
Qed.
Lemma fits_orb x : Rabs x < 1073741824 -> in_int (ftrunc x * 2) = true.
Proof.
  intros H. apply Rabs_def2 in H. assert (G : (-1073741824 < ftrunc x < 1073741824)%Z) by (apply ftrunc_range; [lia|lra]).
  unfold in_int. apply andb_true_intro. split; [apply Z.leb_le|apply Z.ltb_lt]; lia.
Qed.
Lemma ftrunc_pos x : (0 <? ftrunc x)%Z = true <-> 1 <= x.
Proof.
  rewrite Z.ltb_lt. destruct (ftrunc_whole x) as [P Q]. split; intros H.
  - assert (1 <= IZR (ftrunc x)) by (apply IZR_le; lia). destruct (Rle_dec 0 x) as [G|G]; [specialize (P G); lra|]. assert (x <= 0) by lra. specialize (Q H1). lra.
  - assert (0 <= x) by lra. specialize (P H0). apply lt_IZR. lra.
Qed.
Lemma ftrunc_zero x : ftrunc x = 0%Z <-> ~ on_ x.
Proof.
  unfold on_. split.
  - intros E. destruct (ftrunc_whole x) as [P Q]. rewrite E in P, Q. intros [H|H]; [assert (x <= 0) by lra; specialize (Q H0); lra|assert (0 <= x) by lra; specialize (P H0); lra].
  - intros N. apply whole_unique. split; intros; split; lra || (apply Rnot_le_lt; intros ?; apply N; lra).
Qed.

(** ** Running a list of reads *)
Definition vars (p : list stmt) : list string := flat_map (fun d => match d with Rd n _ => [n] | _ => [] end) p.
Definition ivars (p : list stmt) : list string := flat_map (fun d => match d with Rd n (AReal _) => [] | Rd n _ => [n] | _ => [] end) p.
Definition ovars (p : list stmt) : list string := flat_map (fun d => match d with Rd n (AOrb _) => [n] | _ => [] end) p.
Definition pure1 (v : string -> R) (d : stmt) (s : sim) : sim := match d with Rd n a => eff a (v n) s | _ => plain d s end.
Definition pure (v : string -> R) (p : list stmt) (s : sim) : sim := fold_left (fun s d => pure1 v d s) p s.
Lemma good_rd1 f qid v n : good f qid v n -> rd1 f qid n = Ok (v n).
Proof. intros (d & L & V). unfold rd1, read_double, OPTPATH. rewrite L, V. reflexivity. Qed.
Lemma rd1_good f qid n x : rd1 f qid n = Ok x -> exists d, lookup f ("/options/opt_XXXXXXXXXX/" ++ n) qid = Some d.
Proof. unfold rd1, read_double, OPTPATH. destruct lookup as [d|]; [eauto|discriminate]. Qed.
Lemma run_ok f qid v p : forall s, (forall n, In n (vars p) -> good f qid v n) -> (forall n, In n (ivars p) -> fits (v n)) ->
  (forall n, In n (ovars p) -> Rabs (v n) < 1073741824) -> run f qid p s = Ok (pure v p s).
Proof.
  induction p as [|d t IH]; intros s G F O; [reflexivity|].
  assert (E : exec f qid d s = Ok (pure1 v d s)).
  { destruct d as [n a| | | |]; try reflexivity. cbn [exec pure1]. rewrite (good_rd1 f qid v n) by (apply G; cbn; auto). cbn [bind].
    enough (defined a (v n) = true) as -> by reflexivity. destruct a; cbn [defined]; try reflexivity; rewrite ?fits_in, ?fits_orb; try reflexivity;
      try (apply F; cbn; auto); try (apply O; cbn; auto). }
  cbn [run]. rewrite E. cbn [bind]. rewrite IH; [reflexivity| | |]; intros n I; [apply G|apply F|apply O];
    (destruct d as [m [] | | | |]; cbn in I |- *; auto).
Qed.
Lemma run_missing f qid p : forall s s', run f qid p s = Ok s' -> forall n, In n (vars p) -> exists d, lookup f ("/options/opt_XXXXXXXXXX/" ++ n) qid = Some d.
Proof.
  induction p as [|d t IH]; intros s s' H n I; [contradiction|]. cbn [run] in H. destruct (exec f qid d s) as [s1| |] eqn:E; try discriminate. cbn [bind] in H.
  cbn [vars flat_map] in I. apply in_app_or in I. destruct I as [I|I]; [|now apply (IH s1 s' H)].
  destruct d as [m a| | | |]; try contradiction. destruct I as [<-|[]]. cbn [exec] in E. destruct (rd1 f qid m) eqn:R; try discriminate. now apply rd1_good in R.
Qed.
Definition subset (a b : list string) : bool := forallb (fun x => existsb (String.eqb x) b) a.
Lemma subset_in a b : subset a b = true -> forall n, In n a -> In n b.
Proof. unfold subset. rewrite forallb_forall. intros H n I. specialize (H n I). apply existsb_exists in H as (y & J & E). apply String.eqb_eq in E. now subst. Qed.

(** members that a list of reads leaves alone *)
Definition iwrites (p : list stmt) : list string :=
  flat_map (fun d => match d with Rd _ (AInt k) => [k] | Rd _ (AEnd _) => ["ec"; "endcond_active"] | DZero k => [k] | DTor => ["endcond_torandpol"] | _ => [] end) p.
Definition rwrites (p : list stmt) : list string :=
  flat_map (fun d => match d with Rd _ (AReal k) => [k] | Rd _ (AOrb k) => [k] | DDeg k => [k] | DMulE k => [k] | _ => [] end) p.
Definition avoids (k : string) (l : list string) : bool := forallb (fun x => negb (String.eqb k x)) l.
Lemma upd_other {A} (m : string -> A) k x j : String.eqb j k = false -> upd m k x j = m j.
Proof. intros E. unfold upd. now rewrite E. Qed.
Lemma avoids_app k a b : avoids k (a ++ b) = true -> avoids k a = true /\ avoids k b = true.
Proof. unfold avoids. rewrite forallb_app. apply andb_prop. Qed.
Lemma end_ints bits ec : forall s k, avoids k ["ec"; "endcond_active"] = true ->
  ints (fold_left (fun s m => seti "endcond_active" (Z.lor (ints s "endcond_active") (m * b2z (0 <? ec)%Z)) s) bits s) k = ints s k.
Proof.
  induction bits as [|b t IH]; intros s k A; [reflexivity|]. cbn [fold_left]. rewrite (IH _ k A). cbn [seti ints]. apply upd_other.
  unfold avoids in A. cbn [forallb] in A. destruct (String.eqb k "endcond_active"); [|reflexivity]. rewrite !andb_false_r in A. discriminate || (cbn in A; now rewrite andb_false_r in A).
Qed.
Lemma end_reals bits ec : forall s, reals (fold_left (fun s m => seti "endcond_active" (Z.lor (ints s "endcond_active") (m * b2z (0 <? ec)%Z)) s) bits s) = reals s.
Proof. induction bits as [|b t IH]; intros s; [reflexivity|]. cbn [fold_left]. now rewrite IH. Qed.
Lemma end_arrs bits ec : forall s, arrs (fold_left (fun s m => seti "endcond_active" (Z.lor (ints s "endcond_active") (m * b2z (0 <? ec)%Z)) s) bits s) = arrs s.
Proof. induction bits as [|b t IH]; intros s; [reflexivity|]. cbn [fold_left]. now rewrite IH. Qed.
Lemma avoids1 k x : avoids k [x] = true -> String.eqb k x = false.
Proof. unfold avoids. cbn. destruct (String.eqb k x); [discriminate|reflexivity]. Qed.
Lemma pure_ints v p : forall s k, avoids k (iwrites p) = true -> ints (pure v p s) k = ints s k.
Proof.
  induction p as [|d t IH]; intros s k A; [reflexivity|]. unfold pure in *. cbn [fold_left]. unfold iwrites in A. cbn [flat_map] in A. apply avoids_app in A as [A B].
  rewrite IH by exact B. destruct d as [n [] | | | |]; cbn [pure1 eff plain]; try reflexivity; try (cbn [seti ints]; apply upd_other; now apply avoids1).
  rewrite end_ints by exact A. cbn [seti ints]. apply upd_other. unfold avoids in A. cbn [forallb] in A. destruct (String.eqb k "ec"); [discriminate|reflexivity].
Qed.
Lemma pure_reals v p : forall s k, avoids k (rwrites p) = true -> reals (pure v p s) k = reals s k.
Proof.
  induction p as [|d t IH]; intros s k A; [reflexivity|]. unfold pure in *. cbn [fold_left]. unfold rwrites in A. cbn [flat_map] in A. apply avoids_app in A as [A B].
  rewrite IH by exact B. destruct d as [n [] | | | |]; cbn [pure1 eff plain]; try reflexivity; try (cbn [setr reals]; apply upd_other; now apply avoids1).
  now rewrite end_reals.
Qed.
Lemma pure_arrs v p : forall s, arrs (pure v p s) = arrs s.
Proof.
  induction p as [|d t IH]; intros s; [reflexivity|]. unfold pure in *. cbn [fold_left]. rewrite IH.
  destruct d as [n [] | | | |]; cbn [pure1 eff plain]; try reflexivity; now rewrite end_arrs.
Qed.

(** ** Poincare planes *)
Lemma skipn_repeat {A} (x : A) : forall m n, skipn m (repeat x n) = repeat x (n - m).
Proof. induction m as [|m IH]; intros [|n]; cbn; auto. Qed.
Lemma Reqb_eq x y : Reqb x y = true <-> x = y.
Proof. unfold Reqb. destruct Req_EM_T; split; auto; discriminate. Qed.
Lemma scan_before filler m old : forall l i, scan false filler i (l ++ repeat filler (S m)) old = (i + Z.of_nat (List.length (before filler l)))%Z.
Proof.
  induction l as [|x t IH]; intros i.
  - cbn. rewrite (proj2 (Reqb_eq filler filler) eq_refl). lia.
  - cbn [List.app scan before]. unfold Reqb. destruct (Req_EM_T x filler); [cbn; lia|]. rewrite IH. cbn [List.length]. lia.
Qed.
Lemma before_prefix filler : forall l, exists r, l = (before filler l ++ r)%list.
Proof. induction l as [|x t [r E]]; [now exists []|]. cbn. destruct Req_EM_T; [now exists (x :: t)|]. exists r. cbn. now rewrite <- E. Qed.
Lemma planes_prefix filler l : exists r, l = (planes_spec filler l ++ r)%list.
Proof. destruct l as [|x t]; [now exists []|]. cbn [planes_spec]. destruct Rlt_dec; [now exists (x :: t)|]. apply before_prefix. Qed.
Lemma scan_planes filler l old : 0 <= filler -> (List.length l < 30)%nat ->
  let arr := (l ++ skipn (List.length l) (repeat filler 30))%list in
  scan (Rltb (nth 0 arr 0) 0) filler 0 arr old = Z.of_nat (List.length (planes_spec filler l)).
Proof.
  intros F L arr. subst arr. rewrite skipn_repeat. destruct (30 - List.length l)%nat as [|m] eqn:E; [lia|].
  destruct l as [|x t].
  - cbn [planes_spec List.app nth repeat]. assert (Rltb filler 0 = false) as -> by (unfold Rltb; destruct Rlt_dec; [lra|reflexivity]).
    change (filler :: repeat filler m) with ([] ++ repeat filler (S m))%list. rewrite scan_before. reflexivity.
  - cbn [planes_spec]. change (nth 0 ((x :: t) ++ repeat filler (S m)) 0) with x. unfold Rltb. destruct (Rlt_dec x 0).
    + reflexivity.
    + rewrite scan_before. cbn [Z.add]. reflexivity.
Qed.
(** thirty values without a filler: the number of planes is not set *)
Lemma scan_full filler l old : (0 <= nth 0 l 0) -> (forall x, In x l -> x <> filler) -> scan (Rltb (nth 0 l 0) 0) filler 0 l old = old.
Proof.
  intros H F. assert (Rltb (nth 0 l 0) 0 = false) as -> by (unfold Rltb; destruct Rlt_dec; [lra|reflexivity]). clear H. generalize 0%Z.
  induction l as [|x t IH]; intros i; [reflexivity|]. cbn [scan]. unfold Reqb. destruct Req_EM_T; [exfalso; apply (F x); cbn; auto|]. apply IH. intros y I. apply F. cbn; auto.
Qed.
Lemma before_all filler l : (forall x, In x l -> x <> filler) -> before filler l = l.
Proof. induction l as [|x t IH]; intros F; [reflexivity|]. cbn. destruct Req_EM_T; [exfalso; apply (F x); cbn; auto|]. f_equal. apply IH. intros y I. apply F. cbn; auto. Qed.
Lemma planes_all filler l : (forall x, In x l -> 0 <= x) -> (forall x, In x l -> x <> filler) -> planes_spec filler l = l.
Proof. destruct l as [|x t]; intros P F; [reflexivity|]. cbn [planes_spec]. destruct Rlt_dec as [N|]; [specialize (P x (or_introl eq_refl)); lra|]. now apply before_all. Qed.

Definition orb_writes : list string := ["diagorb.mode"; "diagorb.Npnt"; "ntoroidalplots"; "npoloidalplots"; "nradialplots"].
Lemma rdarr_ok f qid a n k s : goodarr f qid a n -> (List.length (a n) <= List.length (arrs s k))%nat ->
  rdarr f qid n k s = Ok (seta k (a n ++ skipn (List.length (a n)) (arrs s k)) s).
Proof. intros (d & L & V) H. unfold rdarr, OPTPATH. rewrite L, V. apply Nat.leb_le in H. now rewrite H. Qed.
Lemma firstn_planes filler l pad g :
  firstn (List.length (planes_spec filler l)) (map g (firstn (List.length (planes_spec filler l)) (l ++ pad)) ++ skipn (List.length (planes_spec filler l)) (l ++ pad)) =
  @map R R g (planes_spec filler l).
Proof.
  destruct (planes_prefix filler l) as [r E]. set (p := planes_spec filler l) in *. clearbody p. subst l. rewrite <- app_assoc.
  assert (K : firstn (List.length p) (p ++ r ++ pad) = p) by (rewrite firstn_app, Nat.sub_diag, firstn_all; cbn; apply app_nil_r).
  rewrite K. rewrite firstn_app, map_length, Nat.sub_diag, firstn_O, app_nil_r. rewrite <- (map_length g p) at 1. apply firstn_all.
Qed.
Lemma firstn_planes0 filler l pad : firstn (List.length (planes_spec filler l)) (l ++ pad) = planes_spec filler l.
Proof.
  destruct (planes_prefix filler l) as [r E]. set (p := planes_spec filler l) in *. clearbody p. subst l. rewrite <- app_assoc.
  rewrite firstn_app, Nat.sub_diag, firstn_all. cbn. apply app_nil_r.
Qed.
Lemma planes_len filler l : (List.length (planes_spec filler l) <= List.length l)%nat.
Proof. destruct (planes_prefix filler l) as [r E]. rewrite E at 2. rewrite app_length. lia. Qed.
Lemma ftr_nonneg : 0 <= TOROIDAL_FILLER /\ 0 <= POLOIDAL_FILLER /\ 0 <= RADIAL_FILLER.
Proof. unfold TOROIDAL_FILLER, POLOIDAL_FILLER, RADIAL_FILLER. lra. Qed.
Definition tor_ (a : string -> list R) := planes_spec 361 (a "ORBITWRITE_TOROIDALANGLES").
Definition pol_ (a : string -> list R) := planes_spec 361 (a "ORBITWRITE_POLOIDALANGLES").
Definition rad_ (a : string -> list R) := planes_spec 1000 (a "ORBITWRITE_RADIALDISTANCES").
Definition orb_spec (v : string -> R) (a : string -> list R) (s' : sim) : Prop :=
  ints s' "diagorb.mode" = ftrunc (v "ORBITWRITE_MODE") /\ ints s' "diagorb.Npnt" = ftrunc (v "ORBITWRITE_NPOINT") /\
  reals s' "diagorb.writeInterval" = v "ORBITWRITE_INTERVAL" /\
  ints s' "ntoroidalplots" = Z.of_nat (List.length (tor_ a)) /\ ints s' "npoloidalplots" = Z.of_nat (List.length (pol_ a)) /\
  ints s' "nradialplots" = Z.of_nat (List.length (rad_ a)) /\
  firstn (List.length (tor_ a)) (arrs s' "toroidalangles") = map (fun x => x * PI / 180) (tor_ a) /\
  firstn (List.length (pol_ a)) (arrs s' "poloidalangles") = map (fun x => x * PI / 180) (pol_ a) /\
  firstn (List.length (rad_ a)) (arrs s' "radialdistances") = rad_ a.
Definition tor_state (l : list R) (filler : R) (k n : string) (s : sim) : sim :=
  let arr := (l ++ skipn (List.length l) (repeat filler 30))%list in
  let m := List.length (planes_spec filler l) in
  seta k (map (fun x => x * PI / 180) (firstn m arr) ++ skipn m arr) s.
Lemma orb_ok f qid v a s :
  (forall n, In n ["ORBITWRITE_MODE"; "ORBITWRITE_NPOINT"; "ORBITWRITE_INTERVAL"] -> good f qid v n) ->
  (forall n, In n ["ORBITWRITE_MODE"; "ORBITWRITE_NPOINT"] -> fits (v n)) ->
  (forall n, In n ["ORBITWRITE_TOROIDALANGLES"; "ORBITWRITE_POLOIDALANGLES"; "ORBITWRITE_RADIALDISTANCES"] -> goodarr f qid a n /\ (List.length (a n) < 30)%nat) ->
  exists s', read_diagorb f qid s = Ok s' /\ orb_spec v a s' /\
    (forall k, avoids k orb_writes = true -> ints s' k = ints s k) /\ (forall k, avoids k ["diagorb.writeInterval"] = true -> reals s' k = reals s k).
Proof.
  intros G F A. unfold read_diagorb.
  rewrite (run_ok f qid v p_diagorb s) by (first [exact G|exact F|intros n []]).
  set (s1 := pure v p_diagorb s). cbn [bind]. cbv zeta.
  destruct (A "ORBITWRITE_TOROIDALANGLES") as [GT LT]; [cbn; auto|].
  destruct (A "ORBITWRITE_POLOIDALANGLES") as [GP LP]; [cbn; auto|].
  destruct (A "ORBITWRITE_RADIALDISTANCES") as [GR LR]; [cbn; auto|].
  assert (L30 : forall (x : R) n, (n < 30)%nat -> (n <= List.length (repeat x MAXPOINCARES))%nat) by (intros x n Hn; rewrite repeat_length; unfold MAXPOINCARES; lia).
  rewrite (rdarr_ok f qid a _ "toroidalangles") by (first [exact GT|cbn [arrs seta upd String.eqb Ascii.eqb Bool.eqb]; now apply L30]). cbn [bind].
  rewrite (rdarr_ok f qid a _ "poloidalangles") by (first [exact GP|cbn [arrs seta upd String.eqb Ascii.eqb Bool.eqb]; now apply L30]). cbn [bind].
  rewrite (rdarr_ok f qid a _ "radialdistances") by (first [exact GR|cbn [arrs seta upd String.eqb Ascii.eqb Bool.eqb]; now apply L30]). cbn [bind].
  cbn [arrs seta upd String.eqb Ascii.eqb Bool.eqb].
  destruct ftr_nonneg as (N1 & N2 & N3).
  unfold count. cbn [ints reals arrs seta seti upd String.eqb Ascii.eqb Bool.eqb].
  unfold MAXPOINCARES.
  rewrite (scan_planes TOROIDAL_FILLER _ _ N1 LT), (scan_planes POLOIDAL_FILLER _ _ N2 LP), (scan_planes RADIAL_FILLER _ _ N3 LR).
  change TOROIDAL_FILLER with 361. change POLOIDAL_FILLER with 361. change RADIAL_FILLER with 1000.
  fold (tor_ a) (pol_ a) (rad_ a).
  unfold to_rad at 1. cbn [ints reals arrs seta seti upd String.eqb Ascii.eqb Bool.eqb]. rewrite Nat2Z.id.
  assert (LE : forall filler l, (List.length l < 30)%nat -> (List.length (planes_spec filler l) <=? List.length (l ++ skipn (List.length l) (repeat filler 30)))%nat = true).
  { intros filler l H. apply Nat.leb_le. rewrite app_length. pose proof (planes_len filler l). lia. }
  rewrite (LE 361 _ LT : (List.length (tor_ a) <=? _)%nat = true). cbn [bind].
  unfold to_rad. cbn [ints reals arrs seta seti upd String.eqb Ascii.eqb Bool.eqb]. rewrite Nat2Z.id.
  rewrite (LE 361 _ LP : (List.length (pol_ a) <=? _)%nat = true).
  eexists. split; [reflexivity|]. split.
  - unfold orb_spec. cbn [ints reals arrs seta seti upd String.eqb Ascii.eqb Bool.eqb].
    repeat (split; [reflexivity|]). split; [exact (firstn_planes 361 _ _ _)|]. split; [exact (firstn_planes 361 _ _ _)|].
    exact (firstn_planes0 1000 _ _).
  - split; intros k K; cbn [ints reals arrs seta seti].
    + unfold avoids, orb_writes in K. cbn [forallb] in K. repeat (apply andb_prop in K as [? K]).
      rewrite !upd_other by (now apply negb_true_iff). subst s1. apply pure_ints. unfold avoids. cbn. now rewrite H, H0.
    + subst s1. apply pure_reals. exact K.
Qed.

(** ** The whole struct *)
Definition stage (v : string -> R) (k : string) (p : list stmt) (s : sim) : sim := if Z.eqb (ints s k) 0 then s else pure v p s.
Lemma stage_ints v c p s k : avoids k (iwrites p) = true -> ints (stage v c p s) k = ints s k.
Proof. intros A. unfold stage. destruct Z.eqb; [reflexivity|now apply pure_ints]. Qed.
Lemma stage_reals v c p s k : avoids k (rwrites p) = true -> reals (stage v c p s) k = reals s k.
Proof. intros A. unfold stage. destruct Z.eqb; [reflexivity|now apply pure_reals]. Qed.
Lemma stage_on v c p s : ints s c <> 0%Z -> stage v c p s = pure v p s.
Proof. intros A. unfold stage. now apply Z.eqb_neq in A as ->. Qed.
Lemma when_ok f qid v c p s :
  (ints s c <> 0%Z -> (forall n, In n (vars p) -> good f qid v n) /\ (forall n, In n (ivars p) -> fits (v n)) /\ ovars p = []) ->
  when c (run f qid p) s = Ok (stage v c p s).
Proof.
  intros H. unfold when, stage. destruct (Z.eqb_spec (ints s c) 0) as [|N]; [reflexivity|]. destruct (H N) as (G & F & O).
  apply run_ok; auto. rewrite O. intros n [].
Qed.
Definition prog (t : dtype) : list stmt := match t with D5 => p_dist5D | D6 => p_dist6D | DR5 => p_distrho5D | DR6 => p_distrho6D | DCOM => p_distCOM end.
Definition coll (t : dtype) : string := match t with D5 => "dist5D_collect" | D6 => "dist6D_collect" | DR5 => "distrho5D_collect" | DR6 => "distrho6D_collect" | DCOM => "distCOM_collect" end.
Definition s1 v s := pure v p_main s.
Definition s2 v s := stage v (coll D5) (prog D5) (s1 v s).
Definition s3 v s := stage v (coll D6) (prog D6) (s2 v s).
Definition s4 v s := stage v (coll DR5) (prog DR5) (s3 v s).
Definition s5 v s := stage v (coll DR6) (prog DR6) (s4 v s).
Definition s6 v s := stage v (coll DCOM) (prog DCOM) (s5 v s).
Ltac fr := first [rewrite stage_ints by reflexivity | rewrite stage_reals by reflexivity].

Lemma dist_vars t : subset (vars (prog t)) (axis_names t) = true /\ subset (ivars (prog t)) (nbin_names t) = true /\ ovars (prog t) = [].
Proof. destruct t; repeat split; reflexivity. Qed.
Lemma whole_on x z : whole x z -> z <> 0%Z -> on_ x.
Proof. intros W N. apply whole_unique in W. rewrite <- W in N. destruct (Rle_dec x (-1)); [now left|]. destruct (Rle_dec 1 x); [now right|]. exfalso. apply N. apply ftrunc_zero. intros [A|A]; lra. Qed.

Record applied (v : string -> R) (a : string -> list R) (s' : sim) : Prop := {
  ap_int : forall m o, In (m, o) int_tab -> whole (v o) (ints s' m);
  ap_real : forall m o u, In (m, o, u) real_tab -> reals s' m = u * v o;
  ap_orb : forall m o, In (m, o) orb_tab -> exists z, whole (v o) z /\ reals s' m = 2 * PI * IZR z;
  ap_end : forall c o, In (c, o) end_tab -> (EndcondProofs.enabled (endcond_opts s') c <-> 1 <= v o);
  ap_tor : torandpol (endcond_opts s') = true <-> 2 <= v "ENDCOND_IONIZED" < 3;
  ap_dist : forall t, on_ (v (collect t)) -> Forall2 (axis_spec v) (axis_tab t) (axes_of t s');
  ap_rec : on_ (v "ENABLE_ORBITWRITE") -> orb_spec v a s' /\
    (forall m, whole (v "SIM_MODE") m ->
       ints s' "diagorb.record_mode" = if (negb (Z.eqb (ftrunc (v "RECORD_MODE")) 0) && (Z.eqb m 1 || Z.eqb m 3))%bool then 2%Z else m);
  ap_coef : on_ (v "ENABLE_TRANSCOEF") -> reals s' "diagtrcof.interval" = v "TRANSCOEF_INTERVAL" /\
    whole (v "TRANSCOEF_NAVG") (ints s' "diagtrcof.Navg") /\ whole (v "TRANSCOEF_RECORDRHO") (ints s' "diagtrcof.recordrho") }.

Lemma bits_lemma b1 b2 b3 b4 b5 b6 b7 b8 c :
  Z.testbit (Z.lor (Z.lor (Z.lor (Z.lor (Z.lor (Z.lor (Z.lor (Z.lor (Z.lor (Z.lor (Z.lor 0 (endcond_tlim * b2z b1)) (endcond_cpumax * b2z b2))
     (endcond_rhomin * b2z b3)) (endcond_rhomax * b2z b3)) (endcond_emin * b2z b4)) (endcond_therm * b2z b4)) (endcond_wall * b2z b5))
     (endcond_polmax * b2z b6)) (endcond_tormax * b2z b6)) (endcond_neutr * b2z b7)) (endcond_ioniz * b2z b8)) (EndcondProofs.bitno c) =
  match c with EndcondProofs.Tlim => b1 | EndcondProofs.Cpumax => b2 | EndcondProofs.Rhomin | EndcondProofs.Rhomax => b3
  | EndcondProofs.Emin | EndcondProofs.Therm => b4 | EndcondProofs.Wall => b5 | EndcondProofs.Polmax | EndcondProofs.Tormax => b6
  | EndcondProofs.Neutr => b7 | EndcondProofs.Ioniz => b8 | EndcondProofs.Hybrid => false end.
Proof. rewrite !Z.lor_spec. destruct c, b1, b2, b3, b4, b5, b6, b7, b8; reflexivity. Qed.
Lemma main_ints v s : forall m o, In (m, o) int_tab -> ints (s1 v s) m = ftrunc (v o).
Proof. intros m o I. unfold int_tab in I. cbn [In] in I. repeat (destruct I as [E|I]; [injection E as <- <-; reflexivity|]). contradiction. Qed.
Lemma main_reals v s : forall m o u, In (m, o, u) real_tab -> reals (s1 v s) m = u * v o.
Proof.
  intros m o u I. unfold real_tab in I. cbn [In] in I. repeat (destruct I as [E|I]; [injection E as <- <- <-|]); [..|contradiction].
  all: match goal with |- _ = 1 * ?x => transitivity x; [reflexivity|ring] | |- _ => idtac end.
  transitivity (v "ENDCOND_MIN_ENERGY" * HmkModel.CONST_E); [reflexivity|]. unfold HmkModel.CONST_E. ring.
Qed.
Lemma main_orbs v s : forall m o, In (m, o) orb_tab -> exists z, whole (v o) z /\ reals (s1 v s) m = 2 * PI * IZR z.
Proof.
  intros m o I. exists (ftrunc (v o)). split; [apply ftrunc_whole|].
  transitivity (IZR (ftrunc (v o) * 2) * PI); [|rewrite mult_IZR; ring].
  unfold orb_tab in I. cbn [In] in I. repeat (destruct I as [E|I]; [injection E as <- <-; reflexivity|]). contradiction.
Qed.
Lemma main_active v s c : Z.testbit (ints (s1 v s) "endcond_active") (EndcondProofs.bitno c) =
  match c with EndcondProofs.Tlim => 0 <? ftrunc (v "ENDCOND_SIMTIMELIM") | EndcondProofs.Cpumax => 0 <? ftrunc (v "ENDCOND_CPUTIMELIM")
  | EndcondProofs.Rhomin | EndcondProofs.Rhomax => 0 <? ftrunc (v "ENDCOND_RHOLIM")
  | EndcondProofs.Emin | EndcondProofs.Therm => 0 <? ftrunc (v "ENDCOND_ENERGYLIM") | EndcondProofs.Wall => 0 <? ftrunc (v "ENDCOND_WALLHIT")
  | EndcondProofs.Polmax | EndcondProofs.Tormax => 0 <? ftrunc (v "ENDCOND_MAXORBS")
  | EndcondProofs.Neutr => 0 <? ftrunc (v "ENDCOND_NEUTRALIZED") | EndcondProofs.Ioniz => 0 <? ftrunc (v "ENDCOND_IONIZED") | EndcondProofs.Hybrid => false end%Z.
Proof. rewrite <- bits_lemma. reflexivity. Qed.
Lemma main_tor v s : ints (s1 v s) "endcond_torandpol" = if Z.eqb (ftrunc (v "ENDCOND_IONIZED")) 2 then 1%Z else 0%Z.
Proof.
  reflexivity.
Qed.
Lemma ftrunc_two x : ftrunc x = 2%Z <-> 2 <= x < 3.
Proof.
  split; intros H.
  - destruct (ftrunc_whole x) as [P Q]. rewrite H in P, Q. destruct (Rle_dec 0 x) as [G|G]; [specialize (P G); lra|]. assert (x <= 0) by lra. specialize (Q H0). lra.
  - apply whole_unique. split; intros; lra.
Qed.
Lemma axes_frame t s s' : (forall k, In k (flat_map (fun p => let k := fst (fst p) in [prefix_ t ++ "min_" ++ k; prefix_ t ++ "max_" ++ k]) (axis_tab t)) -> reals s' k = reals s k) ->
  (forall k, In k (map (fun p => prefix_ t ++ "n_" ++ fst (fst p)) (axis_tab t)) -> ints s' k = ints s k) -> axes_of t s' = axes_of t s.
Proof.
  intros R I. unfold axes_of. apply map_ext_in. intros p P. cbv zeta. f_equal; [apply R|apply R|apply I; apply (in_map (fun p => prefix_ t ++ "n_" ++ fst (fst p))); exact P]; apply in_flat_map; exists p; (split; [exact P|cbn; auto]).
Qed.
Lemma axes_pure v t s : Forall2 (axis_spec v) (axis_tab t) (axes_of t (pure v (prog t) s)).
Proof.
  assert (K : forall x, unit_of true x = deg2rad x) by (intros x; unfold unit_of, deg2rad; field).
  destruct t; unfold axes_of; cbn [map axis_tab fst snd prefix_]; repeat apply Forall2_cons; try apply Forall2_nil;
    (split; [|split]); cbv zeta; cbn [fst snd amin amax an]; rewrite ?K; unfold unit_of; try apply ftrunc_whole; reflexivity.
Qed.
(** a distribution's axes survive the later stages *)
Lemma axes_stage v c p t s : forallb (fun k => avoids k (rwrites p)) (flat_map (fun q => let k := fst (fst q) in [prefix_ t ++ "min_" ++ k; prefix_ t ++ "max_" ++ k]) (axis_tab t)) = true ->
  forallb (fun k => avoids k (iwrites p)) (map (fun q => prefix_ t ++ "n_" ++ fst (fst q)) (axis_tab t)) = true -> axes_of t (stage v c p s) = axes_of t s.
Proof. rewrite !forallb_forall. intros R I. apply axes_frame; intros k K; [apply stage_reals; now apply R|apply stage_ints; now apply I]. Qed.

Lemma rec_reals s : reals (set_record_mode s) = reals s.
Proof. unfold set_record_mode. cbv zeta. destruct (_ && _)%bool; reflexivity. Qed.
Lemma rec_ints s k : String.eqb k "diagorb.record_mode" = false -> ints (set_record_mode s) k = ints s k.
Proof. intros E. unfold set_record_mode. cbv zeta. destruct (_ && _)%bool; cbn [seti ints]; rewrite !upd_other by exact E; reflexivity. Qed.
Lemma rec_mode s : ints (set_record_mode s) "diagorb.record_mode" =
  if (negb (Z.eqb (ints s "record_mode") 0) && (Z.eqb (ints s "sim_mode") 1 || Z.eqb (ints s "sim_mode") 3))%bool then 2%Z else ints s "sim_mode".
Proof. unfold set_record_mode. cbv zeta. cbn [seti ints]. rewrite upd_other by reflexivity. destruct (_ && _)%bool; reflexivity. Qed.

Theorem options_ok f qid v a s : file_ok f qid v a -> exists s', options_read f qid s = Ok s' /\ applied v a s'.
Proof.
  intros [OB OI OO OD OR OC].
  assert (M : run f qid p_main s = Ok (s1 v s)).
  { apply run_ok; intros n I; [apply OB|apply OI|apply OO]; revert n I; apply subset_in; reflexivity. }
  assert (SW : forall t, ints (s1 v s) (coll t) = ftrunc (v (collect t))) by (intros []; apply main_ints; cbn; tauto).
  assert (D : forall t s0, ints s0 (coll t) = ftrunc (v (collect t)) -> when (coll t) (run f qid (prog t)) s0 = Ok (stage v (coll t) (prog t) s0)).
  { intros t s0 E. apply when_ok. rewrite E. intros N. destruct (OD t (whole_on _ _ (ftrunc_whole _) N)) as [G F]. destruct (dist_vars t) as (V1 & V2 & V3).
    split; [|split; [|exact V3]]; intros n I; [apply G|apply F]; revert n I; apply subset_in; assumption. }
  assert (E2 : when (coll D5) (run f qid (prog D5)) (s1 v s) = Ok (s2 v s)) by (apply D, SW).
  assert (E3 : when (coll D6) (run f qid (prog D6)) (s2 v s) = Ok (s3 v s)) by (apply D; unfold s2; repeat fr; apply SW).
  assert (E4 : when (coll DR5) (run f qid (prog DR5)) (s3 v s) = Ok (s4 v s)) by (apply D; unfold s3, s2; repeat fr; apply SW).
  assert (E5 : when (coll DR6) (run f qid (prog DR6)) (s4 v s) = Ok (s5 v s)) by (apply D; unfold s4, s3, s2; repeat fr; apply SW).
  assert (E6 : when (coll DCOM) (run f qid (prog DCOM)) (s5 v s) = Ok (s6 v s)) by (apply D; unfold s5, s4, s3, s2; repeat fr; apply SW).
  cbn [coll prog] in E2, E3, E4, E5, E6.
  assert (E7 : exists s7, when "diagorb_collect" (fun s => read_diagorb f qid (set_record_mode s)) (s6 v s) = Ok s7 /\
     (on_ (v "ENABLE_ORBITWRITE") -> orb_spec v a s7 /\ ints s7 "diagorb.record_mode" = ints (set_record_mode (s6 v s)) "diagorb.record_mode") /\
     (forall k, avoids k ("diagorb.record_mode" :: orb_writes) = true -> ints s7 k = ints (s6 v s) k) /\
     (forall k, avoids k ["diagorb.writeInterval"] = true -> reals s7 k = reals (s6 v s) k)).
  { assert (SO : ints (s6 v s) "diagorb_collect" = ftrunc (v "ENABLE_ORBITWRITE")).
    { unfold s6, s5, s4, s3, s2. repeat fr. apply main_ints. cbn. tauto. }
    unfold when. rewrite SO. destruct (Z.eqb_spec (ftrunc (v "ENABLE_ORBITWRITE")) 0) as [Z0|N].
    - exists (s6 v s). split; [reflexivity|]. split; [|auto]. intros H. apply ftrunc_zero in Z0. contradiction.
    - destruct (OR (whole_on _ _ (ftrunc_whole _) N)) as (G & F & A). destruct (orb_ok f qid v a (set_record_mode (s6 v s)) G F A) as (s7 & E & S & FI & FR).
      exists s7. split; [exact E|]. split; [intros _; split; [exact S|apply FI; reflexivity]|]. split; intros k K.
      + unfold avoids in K. cbn [forallb] in K. apply andb_prop in K as [K1 K2]. rewrite FI by exact K2. apply negb_true_iff in K1.
        now apply rec_ints.
      + rewrite FR by exact K. now rewrite rec_reals. }
  destruct E7 as (s7 & E7 & O7 & I7 & R7).
  assert (SC : ints s7 "diagtrcof_collect" = ftrunc (v "ENABLE_TRANSCOEF")).
  { rewrite I7 by reflexivity. unfold s6, s5, s4, s3, s2. repeat fr. apply main_ints. cbn. tauto. }
  exists (stage v "diagtrcof_collect" p_diagtrcof s7). split.
  { unfold options_read. rewrite M. cbn [bind]. rewrite E2. cbn [bind]. rewrite E3. cbn [bind]. rewrite E4. cbn [bind]. rewrite E5. cbn [bind]. rewrite E6. cbn [bind]. rewrite E7. cbn [bind].
    apply when_ok. rewrite SC. intros N. destruct (OC (whole_on _ _ (ftrunc_whole _) N)) as [G F]. split; [exact G|]. split; [exact F|reflexivity]. }
  assert (PI_ : forall k, avoids k (iwrites p_diagtrcof) = true -> avoids k ("diagorb.record_mode" :: orb_writes) = true ->
     avoids k (iwrites p_dist5D ++ iwrites p_dist6D ++ iwrites p_distrho5D ++ iwrites p_distrho6D ++ iwrites p_distCOM)%list = true ->
     ints (stage v "diagtrcof_collect" p_diagtrcof s7) k = ints (s1 v s) k).
  { intros k A B C. apply avoids_app in C as [C1 C]. apply avoids_app in C as [C2 C]. apply avoids_app in C as [C3 C]. apply avoids_app in C as [C4 C5].
    rewrite stage_ints, I7 by assumption. unfold s6, s5, s4, s3, s2. now rewrite !stage_ints by assumption. }
  assert (PR_ : forall k, avoids k (rwrites p_diagtrcof) = true -> avoids k ["diagorb.writeInterval"] = true ->
     avoids k (rwrites p_dist5D ++ rwrites p_dist6D ++ rwrites p_distrho5D ++ rwrites p_distrho6D ++ rwrites p_distCOM)%list = true ->
     reals (stage v "diagtrcof_collect" p_diagtrcof s7) k = reals (s1 v s) k).
  { intros k A B C. apply avoids_app in C as [C1 C]. apply avoids_app in C as [C2 C]. apply avoids_app in C as [C3 C]. apply avoids_app in C as [C4 C5].
    rewrite stage_reals, R7 by assumption. unfold s6, s5, s4, s3, s2. now rewrite !stage_reals by assumption. }
  split.
  - intros m o I. rewrite PI_; [rewrite (main_ints v s m o I); apply ftrunc_whole|..];
      (unfold int_tab in I; cbn [In] in I; repeat (destruct I as [E|I]; [injection E as <- <-; reflexivity|]); contradiction).
  - intros m o u I. rewrite PR_; [exact (main_reals v s m o u I)|..];
      (unfold real_tab in I; cbn [In] in I; repeat (destruct I as [E|I]; [injection E as <- _ _; reflexivity|]); contradiction).
  - intros m o I. rewrite PR_; [exact (main_orbs v s m o I)|..];
      (unfold orb_tab in I; cbn [In] in I; repeat (destruct I as [E|I]; [injection E as <- _; reflexivity|]); contradiction).
  - intros c o I. unfold EndcondProofs.enabled. cbn [endcond_opts active]. rewrite PI_ by reflexivity. rewrite main_active.
    unfold end_tab in I. cbn [In] in I. repeat (destruct I as [E|I]; [injection E as <- <-; apply ftrunc_pos|]). contradiction.
  - cbn [endcond_opts torandpol]. rewrite PI_ by reflexivity. rewrite main_tor, <- ftrunc_two.
    destruct (Z.eqb_spec (ftrunc (v "ENDCOND_IONIZED")) 2) as [E|E]; cbn; split; auto; try discriminate; intros; contradiction.
  - intros t H. assert (N : ftrunc (v (collect t)) <> 0%Z) by (intros E; now apply ftrunc_zero in E).
    assert (F7 : axes_of t (stage v "diagtrcof_collect" p_diagtrcof s7) = axes_of t (s6 v s)).
    { rewrite axes_stage by (destruct t; reflexivity). apply axes_frame; intros k K; [apply R7|apply I7];
        (destruct t; cbn [axis_tab map flat_map fst snd prefix_ List.app In] in K; repeat (destruct K as [<-|K]; [reflexivity|]); contradiction). }
    rewrite F7.
    destruct t; unfold s6, s5, s4, s3, s2; repeat rewrite axes_stage by reflexivity; rewrite stage_on by (repeat fr; rewrite ?SW; exact N); apply axes_pure.
  - intros H. destruct (O7 H) as [S R]. split.
    + unfold orb_spec in *. rewrite !stage_ints, stage_reals by reflexivity. assert (AR : arrs (stage v "diagtrcof_collect" p_diagtrcof s7) = arrs s7) by (unfold stage; destruct Z.eqb; [reflexivity|apply pure_arrs]). rewrite AR. exact S.
    + intros m W. apply whole_unique in W. subst m. rewrite stage_ints by reflexivity. rewrite R, rec_mode.
      assert (A1 : ints (s6 v s) "sim_mode" = ftrunc (v "SIM_MODE")) by (unfold s6, s5, s4, s3, s2; repeat fr; apply main_ints; cbn; tauto).
      assert (A2 : ints (s6 v s) "record_mode" = ftrunc (v "RECORD_MODE")) by (unfold s6, s5, s4, s3, s2; repeat fr; apply main_ints; cbn; tauto).
      now rewrite A1, A2.
  - intros H. assert (N : ftrunc (v "ENABLE_TRANSCOEF") <> 0%Z) by (intros E; now apply ftrunc_zero in E).
    rewrite stage_on by (rewrite SC; exact N). split; [reflexivity|split; apply ftrunc_whole].
Qed.

(** ** What a successful read implies *)
Definition val (f : h5) (qid n : string) : R := match rd1 f qid n with Ok x => x | _ => 0 end.
Lemma run_inv f qid p : forall s s', run f qid p s = Ok s' -> s' = pure (val f qid) p s.
Proof.
  induction p as [|d t IH]; intros s s' H; [now injection H|]. cbn [run] in H. destruct (exec f qid d s) as [t1| |] eqn:E; try discriminate. cbn [bind] in H.
  apply IH in H. rewrite H. unfold pure. cbn [fold_left]. f_equal.
  destruct d as [n a| | | |]; cbn [exec] in E; try (now injection E). cbn [pure1]. unfold val. destruct (rd1 f qid n) as [x| |]; try discriminate. cbn [bind] in E.
  destruct (defined a x); [now injection E|discriminate].
Qed.
Lemma when_inv f qid c p s s' : when c (run f qid p) s = Ok s' -> s' = stage (val f qid) c p s /\
  (ints s c <> 0%Z -> forall n, In n (vars p) -> exists d, lookup f ("/options/opt_XXXXXXXXXX/" ++ n) qid = Some d).
Proof.
  unfold when, stage. destruct (Z.eqb_spec (ints s c) 0) as [E|N]; intros H; [injection H as <-; split; [reflexivity|contradiction]|].
  split; [now apply run_inv|]. intros _. exact (run_missing f qid p s s' H).
Qed.
Lemma good_val f qid v n : good f qid v n -> val f qid n = v n.
Proof. intros G. unfold val. now rewrite (good_rd1 f qid v n G). Qed.
Lemma bind_ok {A B} (o : outcome A) (g : A -> outcome B) b : bind o g = Ok b -> exists x, o = Ok x /\ g x = Ok b.
Proof. destruct o; cbn; intros H; try discriminate. eauto. Qed.
Theorem options_needed f qid v s s' : options_read f qid s = Ok s' ->
  (forall n, In n base_names -> exists d, lookup f ("/options/opt_XXXXXXXXXX/" ++ n) qid = Some d) /\
  (forall t n, good f qid v (collect t) -> on_ (v (collect t)) -> In n (axis_names t) -> exists d, lookup f ("/options/opt_XXXXXXXXXX/" ++ n) qid = Some d).
Proof.
  unfold options_read. intros H. apply bind_ok in H as (t1 & M & H). apply bind_ok in H as (t2 & E2 & H). apply bind_ok in H as (t3 & E3 & H).
  apply bind_ok in H as (t4 & E4 & H). apply bind_ok in H as (t5 & E5 & H). apply bind_ok in H as (t6 & E6 & _).
  split; [intros n I; apply (run_missing f qid p_main s t1 M); revert n I; apply subset_in; reflexivity|].
  intros t n G O. apply run_inv in M. set (w := val f qid) in *.
  assert (SW : ints t1 (coll t) = ftrunc (w (collect t))) by (rewrite M; change (pure w p_main s) with (s1 w s); destruct t; apply main_ints; cbn; tauto).
  assert (N : ints t1 (coll t) <> 0%Z) by (rewrite SW; unfold w; rewrite (good_val f qid v _ G); intros E; apply ftrunc_zero in E; contradiction).
  clear M SW. apply when_inv in E2 as [-> P2], E3 as [-> P3], E4 as [-> P4], E5 as [-> P5], E6 as [-> P6].
  intros I. destruct t; [apply P2|apply P3|apply P4|apply P5|apply P6]; repeat fr; try exact N; revert n I; apply subset_in; reflexivity.
Qed.

(** ** Orbit limits *)
Theorem options_either v a s' ki kf tm q ekin T hit nb : applied v a s' -> 1 <= v "ENDCOND_MAXORBS" -> ~ (2 <= v "ENDCOND_IONIZED" < 3) ->
  reals s' "endcond_max_tororb" < Rabs (q_phi q) -> EndcondProofs.met (endcond_opts s') ki kf tm q ekin T hit nb EndcondProofs.Tormax.
Proof.
  intros A M N L. cbn [EndcondProofs.met]. unfold EndcondProofs.orbit_crit. split; [apply (ap_end v a s' A _ "ENDCOND_MAXORBS"); [cbn; tauto|exact M]|]. split; [exact L|].
  intros E. apply (ap_tor v a s' A) in E. contradiction.
Qed.
Theorem options_both v a s' ki kf tm q ekin T hit : applied v a s' -> 2 <= v "ENDCOND_IONIZED" < 3 ->
  EndcondProofs.met (endcond_opts s') ki kf tm q ekin T hit None EndcondProofs.Tormax -> reals s' "endcond_max_polorb" < Rabs (theta kf).
Proof.
  intros A N (E & L & B). apply (ap_tor v a s' A) in N. destruct (B N) as [_ [P|[]]]. exact P.
Qed.

(** ** Thirty Poincare planes *)
Lemma thirty_planes k n filler l s : (List.length l = 30)%nat -> arrs s k = l -> 0 <= nth 0 l 0 -> (forall x, In x l -> x <> filler) ->
  ints (count filler k n s) n = ints s n.
Proof. intros L A P F. unfold count. cbn [seti ints]. unfold upd. rewrite String.eqb_refl, A. now apply scan_full. Qed.
Theorem options_thirty f qid v a s z :
  (forall n, In n ["ORBITWRITE_MODE"; "ORBITWRITE_NPOINT"; "ORBITWRITE_INTERVAL"] -> good f qid v n) ->
  (forall n, In n ["ORBITWRITE_MODE"; "ORBITWRITE_NPOINT"] -> fits (v n)) ->
  goodarr f qid a "ORBITWRITE_TOROIDALANGLES" -> List.length (a "ORBITWRITE_TOROIDALANGLES") = 30%nat ->
  (forall x, In x (a "ORBITWRITE_TOROIDALANGLES") -> 0 <= x < 360) ->
  goodarr f qid a "ORBITWRITE_POLOIDALANGLES" -> (List.length (a "ORBITWRITE_POLOIDALANGLES") < 30)%nat ->
  goodarr f qid a "ORBITWRITE_RADIALDISTANCES" -> (List.length (a "ORBITWRITE_RADIALDISTANCES") < 30)%nat ->
  ints s "ntoroidalplots" = z -> (0 <= z)%Z ->
  match read_diagorb f qid s with Ok s' => (z <= 30)%Z /\ ints s' "ntoroidalplots" = z | Rejected => False | Overflow => (30 < z)%Z end.
Proof.
  intros G F GT LT BT GP LP GR LR Ez Zp. unfold read_diagorb. rewrite (run_ok f qid v p_diagorb s) by (first [exact G|exact F|intros n []]).
  set (t1 := pure v p_diagorb s). cbn [bind]. cbv zeta.
  assert (Zt : ints t1 "ntoroidalplots" = z) by (subst t1; rewrite pure_ints by reflexivity; exact Ez).
  assert (L30 : forall (x : R) n, (n <= 30)%nat -> (n <= List.length (repeat x MAXPOINCARES))%nat) by (intros x n Hn; rewrite repeat_length; exact Hn).
  rewrite (rdarr_ok f qid a _ "toroidalangles") by (first [exact GT|cbn [arrs seta upd String.eqb Ascii.eqb Bool.eqb]; apply L30; lia]). cbn [bind].
  rewrite (rdarr_ok f qid a _ "poloidalangles") by (first [exact GP|cbn [arrs seta upd String.eqb Ascii.eqb Bool.eqb]; apply L30; lia]). cbn [bind].
  rewrite (rdarr_ok f qid a _ "radialdistances") by (first [exact GR|cbn [arrs seta upd String.eqb Ascii.eqb Bool.eqb]; apply L30; lia]). cbn [bind].
  cbn [arrs seta upd String.eqb Ascii.eqb Bool.eqb]. unfold MAXPOINCARES.
  assert (ST : (a "ORBITWRITE_TOROIDALANGLES" ++ skipn (List.length (a "ORBITWRITE_TOROIDALANGLES")) (repeat TOROIDAL_FILLER 30))%list = a "ORBITWRITE_TOROIDALANGLES").
  { rewrite LT, skipn_repeat, Nat.sub_diag. apply app_nil_r. }
  rewrite ST. clear ST.
  destruct ftr_nonneg as (N1 & N2 & N3). unfold count. cbn [ints reals arrs seta seti upd String.eqb Ascii.eqb Bool.eqb].
  rewrite (scan_planes POLOIDAL_FILLER _ _ N2 LP), (scan_planes RADIAL_FILLER _ _ N3 LR).
  assert (H0 : 0 <= nth 0 (a "ORBITWRITE_TOROIDALANGLES") 0) by (apply BT; apply nth_In; lia).
  rewrite (scan_full TOROIDAL_FILLER _ _ H0) by (intros x I; specialize (BT x I); unfold TOROIDAL_FILLER; lra).
  rewrite Zt. unfold to_rad at 1. cbn [ints reals arrs seta seti upd String.eqb Ascii.eqb Bool.eqb]. rewrite LT.
  destruct (Nat.leb_spec (Z.to_nat z) 30) as [Q|Q]; cbn [bind]; [|lia].
  unfold to_rad. cbn [ints reals arrs seta seti upd String.eqb Ascii.eqb Bool.eqb]. rewrite Nat2Z.id.
  assert (LE : (List.length (planes_spec POLOIDAL_FILLER (a "ORBITWRITE_POLOIDALANGLES")) <=? List.length (a "ORBITWRITE_POLOIDALANGLES" ++ skipn (List.length (a "ORBITWRITE_POLOIDALANGLES")) (repeat POLOIDAL_FILLER 30)))%nat = true).
  { apply Nat.leb_le. rewrite app_length. pose proof (planes_len POLOIDAL_FILLER (a "ORBITWRITE_POLOIDALANGLES")). lia. }
  rewrite LE. split; [lia|]. reflexivity.
Qed.

(** ** From the options to the distribution in the file *)
(** first and last edge and number of bins of an axis in the file; the constants of motion are asked for in SI and written in eV *)
Definition edge_spec (v : string -> R) (c : R) (p : string * string * bool) (e : string * string * list R) : Prop :=
  let n := snd (fst p) in
  exists z, whole (v ("DIST_NBIN_" ++ n)) z /\ Z.of_nat (List.length (snd e)) = (z + 1)%Z /\
    nth_error (snd e) 0 = Some (v ("DIST_MIN_" ++ n) / c) /\ nth_error (snd e) (Z.to_nat z) = Some (v ("DIST_MAX_" ++ n) / c).
Definition edge_unit (t : dtype) : R := match t with DCOM => 1.602176565e-19 | _ => 1 end.
Definition conv_ok (c : R) (deg : bool) (g : R -> R) : Prop := forall x, g (unit_of deg x) = x / c.
Lemma convs t : Forall2 (fun p s => conv_ok (edge_unit t) (snd p) (fst (fst s))) (axis_tab t) (dist_axes t).
Proof.
  assert (D : conv_ok 1 true rad2deg) by (intros x; unfold rad2deg, unit_of; field; apply PI_neq0).
  assert (I : conv_ok 1 false asis) by (intros x; unfold asis, unit_of; field).
  assert (E : conv_ok 1.602176565e-19 false by_e) by (intros x; reflexivity).
  destruct t; cbn [axis_tab dist_axes edge_unit]; repeat apply Forall2_cons; try apply Forall2_nil; first [exact D|exact I|exact E].
Qed.
Lemma edges_axis v c p s a : axis_spec v p a -> 1 <= v ("DIST_NBIN_" ++ snd (fst p)) -> conv_ok c (snd p) (fst (fst s)) -> edge_spec v c p (HoutProofs.axis_edges s a).
Proof.
  intros (A & B & W) P C. exists (an a). split; [exact W|]. assert (N : (0 < an a)%Z) by (apply lt_IZR; destruct W as [W _]; specialize (W ltac:(lra)); lra).
  assert (NR : 0 < IZR (an a)) by now apply IZR_lt.
  unfold HoutProofs.axis_edges. cbn [snd fst]. split; [unfold edges; rewrite map_length, seq_length; cbn; lia|].
  rewrite !HoutProofs.edges_nth by (cbn; lia). cbn [a_n a_min a_max axis_out]. rewrite A, B, !C. split; f_equal; [cbn; ring|].
  rewrite INR_IZR_INZ, Z2Nat.id by lia.
  generalize (v ("DIST_MAX_" ++ snd (fst p)) / c) (v ("DIST_MIN_" ++ snd (fst p)) / c). intros x y. field. lra.
Qed.
Theorem options_to_edges v a s' t h : applied v a s' -> on_ (v (collect t)) -> (forall n, In n (nbin_names t) -> 1 <= v n) ->
  Forall2 (edge_spec v (edge_unit t)) (axis_tab t) (hf_edges (dist_write t (axes_of t s') h)).
Proof.
  intros A O P. pose proof (ap_dist v a s' A t O) as D. change (dist_write t (axes_of t s') h) with (HoutProofs.write_axes (combine (dist_axes t) (axes_of t s')) (dist_unit t) h).
  rewrite HoutProofs.write_axes_edges. pose proof (convs t) as C. unfold nbin_names in P. revert P D C. generalize (axis_tab t) (dist_axes t) (axes_of t s'). clear.
  intros l sl al P D. revert sl. induction D as [|p x l al X D IH]; intros sl C; inversion C; subst; [constructor|]. cbn [combine map fst snd]. constructor.
  - apply edges_axis; auto. apply P. now left.
  - apply IH; [|assumption]. intros n I. apply P. now right.
Qed.
