(** The output of a run: marker states, orbits, transport coefficients and distributions *)
From Coq Require Import Reals ZArith List String Ascii Bool Arith Lia Lra Sorted.
From Verif Require Import MainModel HdfModel HdfProofs PhysModel HmkModel HmkProofs ErrorModel ErrorProofs StateModel MpiModel DistModel DistProofs HoutModel HoutProofs.
Import ListNotations.
Local Open Scope string_scope.
Local Open Scope R_scope.

(** Marker states, orbits and transport coefficients *)
(** every field of every marker, in order, with a unit in which it is the SI value; errors are split into message, line and module *)
Theorem output_state : forall f run state ps, tree f ->
  (fst (state_write f run state ps) = true <-> writable f run state) /\
  (fst (state_write f run state ps) = false -> snd (state_write f run state ps) = f) /\
  (writable f run state -> ps <> [] -> Forall sane ps ->
   let g := (run ++ [state])%list in let f' := snd (state_write f run state ps) in
   written f f' g state_names /\
   (forall n q, In (n, q) state_reals -> holds f' g n ps q) /\ (forall n q, In (n, q) state_ints -> holds_int f' g n ps q) /\ holds_charge f' g "charge" ps s_charge /\
   (forall msg line mod_ : marker -> Z, (forall p, In p ps -> raised (s_err p) (msg p) (line p) (mod_ p)) ->
      holds_int f' g "errormsg" ps msg /\ holds_int f' g "errorline" ps line /\ holds_int f' g "errormod" ps mod_)).
Proof. exact state_written. Qed.
Print Assumptions output_state.
(** one row per slot in use, in order, for exactly the quantities of the simulation mode *)
Theorem output_orbit : forall f run name m pc o rows, tree f -> rows_of (o_len o) (fun i => o_data o o_id i <> 0) rows ->
  (forall i, (i < o_len o)%nat -> o_data o o_id i = 0 \/ 1 <= o_data o o_id i) ->
  (fst (orbit_write f run name m pc o) = true <-> writable f run name) /\
  (writable f run name -> rows <> [] -> let g := (run ++ [name])%list in let f' := snd (orbit_write f run name m pc o) in
   written f f' g (map oname (orb_allocated m pc)) /\
   forall q, In q (orb_allocated m pc) ->
     (int_field q = false -> q <> o_charge -> holds f' g (oname q) rows (o_data o q)) /\
     (int_field q = true -> forall z, same_number (o_data o q) z rows -> (forall i, In i rows -> width_ok q (z i)) -> holds_int f' g (oname q) rows z) /\
     (q = o_charge -> (forall i, In i rows -> exists k, int64 k /\ o_data o q i = IZR k * CONST_E) -> holds_charge f' g (oname q) rows (o_data o q))).
Proof. exact orbit_written. Qed.
Print Assumptions output_orbit.
(** no slot in use: an empty group and no error *)
Theorem output_orbit_empty : forall f run name m pc o, tree f -> (forall i, (i < o_len o)%nat -> o_data o o_id i = 0) -> writable f run name ->
  let f' := snd (orbit_write f run name m pc o) in
  fst (orbit_write f run name m pc o) = true /\ grp f' (run ++ [name])%list = true /\ forall q, In q (orb_allocated m pc) -> ds f' (run ++ [name])%list (oname q) = None.
Proof. exact orbit_empty. Qed.
Print Assumptions output_orbit_empty.
(** identifiers, drift and diffusion coefficients in aligned rows *)
Theorem output_transcoef : forall f run name c rows, tree f -> rows_of (c_len c) (fun i => (0 < c_id c i)%Z) rows ->
  (fst (transcoef_write f run name c) = true <-> writable f run name) /\
  (writable f run name -> rows <> [] -> let g := (run ++ [name])%list in let f' := snd (transcoef_write f run name c) in
   written f f' g ["ids"; "k"; "d"] /\ holds_int f' g "ids" rows (c_id c) /\ holds f' g "k" rows (c_K c) /\ holds f' g "d" rows (c_D c) /\
   unit_of f' g "k" = Some (if c_rho c then "1/s" else "m/s") /\ unit_of f' g "d" = Some (if c_rho c then "1/s" else "m^2/s")).
Proof. exact transcoef_written. Qed.
Print Assumptions output_transcoef.
Definition root_file : h5 := mkh5 (fun p => match p with [] => true | _ => false end) (fun _ _ => None) (fun _ => None).
Example output_orbit_ex : let o := mkorb 3 (fun q i => match q, i with o_id, 0%nat => 4 | o_id, 2%nat => 9 | o_id, _ => 0 | o_z, _ => INR i | _, _ => 0 end) in
  writable root_file [] "orbit" /\ ds (snd (orbit_write root_file [] "orbit" mode_gc false o)) ["orbit"] "z" = Some (DReal [1 * 0; 1 * INR 2]) /\
  ds (snd (orbit_write root_file [] "orbit" mode_gc false o)) ["orbit"] "pr" = None.
Proof.
  cbv zeta. split; [split; reflexivity|].
  assert (U : in_use (mkorb 3 (fun q i => match q, i with o_id, 0%nat => 4 | o_id, 2%nat => 9 | o_id, _ => 0 | o_z, _ => INR i | _, _ => 0 end)) = [0; 2]%nat).
  { unfold in_use. cbn [o_len seq filter o_data]. repeat (destruct Rlt_dec; try lra); reflexivity. }
  unfold orbit_write, writeset. rewrite U. split; reflexivity.
Qed.
Example output_transcoef_ex : let c := mkcoef 3 (fun i => match i with 1%nat => 7%Z | _ => 0%Z end) (fun i => INR i) (fun i => 2 * INR i) true in
  ds (snd (transcoef_write root_file [] "transcoef" c)) ["transcoef"] "ids" = Some (DInt [7%Z]) /\
  ds (snd (transcoef_write root_file [] "transcoef" c)) ["transcoef"] "d" = Some (DReal [2 * 1]).
Proof. split; reflexivity. Qed.

(** Distributions *)
(** a point of the grid sees the bin it was counted in; a point outside sees none *)
Theorem output_dist_lookup : forall t ax h x v, wf t ax -> List.length x = naxes t ->
  (looks_up (dist_write t ax h) x v <-> inbox ax x = true /\ v = h (index t ax (bins ax x))).
Proof. exact dist_lookup. Qed.
Print Assumptions output_dist_lookup.
(** the edges of every axis run from its minimum to its maximum in the stated unit *)
Theorem output_dist_edges : forall t ax h, wf t ax -> Forall2 covers (hf_edges (dist_write t ax h)) ax /\ map (fun e => fst (fst e)) (hf_edges (dist_write t ax h)) = coord_names t.
Proof. exact dist_edges. Qed.
Print Assumptions output_dist_edges.
(** from markers to file: the value at a point is the weighted time the guiding centers spent in its cell *)
Theorem output_dist_measured : forall E0 c0 psi mom t ax calls x v, wf t ax -> List.length x = naxes t ->
  looks_up (dist_write t ax (run_gc E0 c0 psi mom t ax (fun _ => 0) calls)) x v ->
  v = sumif (fun p => g_run (fst p) && incell ax (bins ax x) (coords_gc E0 c0 psi mom t (fst p)))%bool wdt (List.concat calls).
Proof. exact dist_measured. Qed.
Print Assumptions output_dist_measured.
(** the general histogram: axes without bins are left out and the others still address the same bins *)
Theorem output_hist_lookup : forall req b x v, hist_req_ok req -> ~ In 12%nat (map fst req) -> let h := hist_init req in
  let coords := map x (used_axes h) in
  (looks_up (hist_write h b) coords v <->
   (forall i a, In (i, a) req -> amin a <= x i < amax a) /\
   v = b (hist_index h (fun i => if unused h i then 0%Z else bin (h_ax h i) (x i)))).
Proof. exact hist_lookup. Qed.
Print Assumptions output_hist_lookup.
(** names of its axes *)
Theorem output_hist_names : forall h b, map (fun e => fst (fst e)) (hf_edges (hist_write h b)) = map (fun i => nth i hist_names "") (used_axes h).
Proof. exact hist_named. Qed.
Print Assumptions output_hist_names.
(** finding: the axis of magnetic moments is labelled T/eV while its limits are in J/T *)
Theorem output_hist_mu_refuted : exists req b, hist_req_ok req /\ let h := hist_init req in
  exists e, In e (hf_edges (hist_write h b)) /\ fst (fst e) = "mu" /\ ~ covers e (h_ax h 12%nat).
Proof. exact hist_mu_refuted. Qed.
Print Assumptions output_hist_mu_refuted.
(** finding: the unit of the ordinate is the inverse of the units of the axes for the rho and constants-of-motion distributions, not for the 5D and 6D ones *)
Theorem output_density_units : forall t ax h, wf t ax -> (density_unit (dist_write t ax h) <-> t = DR5 \/ t = DR6 \/ t = DCOM).
Proof. exact density_units. Qed.
Print Assumptions output_density_units.
Example output_dist_ex : let ax := [AX 0 1 2; AX 0 1 2; AX 0 1 2] in
  wf DCOM ax /\ looks_up (dist_write DCOM ax (fun i => IZR i)) [1 / 4; 3 / 4; 1 / 4] 2.
Proof.
  cbv zeta. assert (W : wf DCOM [AX 0 1 2; AX 0 1 2; AX 0 1 2]).
  { split; [reflexivity|]. repeat constructor; cbn; lra || lia. }
  split; [exact W|]. apply output_dist_lookup; [exact W|reflexivity|].
  assert (B : bins [AX 0 1 2; AX 0 1 2; AX 0 1 2] [1 / 4; 3 / 4; 1 / 4] = [0; 1; 0]%Z).
  { unfold bins. cbn [combine map fst snd]. assert (X : bin (AX 0 1 2) (1 / 4) = 0%Z) by (apply bin_spec; unfold width; cbn; lra || lia).
    assert (Y : bin (AX 0 1 2) (3 / 4) = 1%Z) by (apply bin_spec; unfold width; cbn; lra || lia). now rewrite X, Y. }
  rewrite B. split; [|reflexivity]. unfold inbox, leR, ltR. cbn [combine forallb fst snd amin amax]. repeat (destruct Rle_dec; [|lra]). repeat (destruct Rlt_dec; [|lra]). reflexivity.
Qed.
Example output_units_ex : dim_of "s/(m^5*kg^2*deg*e)" = Some [-5; -2; 1; -1; -1; 0; 0]%Z /\ dim_of "T/(eV**3*s)" = Some [0; 0; -1; 0; 0; -3; 1]%Z /\ dim_of "kg*m/s" = Some [1; 1; -1; 0; 0; 0; 0]%Z.
Proof. repeat split; reflexivity. Qed.
