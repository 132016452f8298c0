(** Marker input: src/hdf5io/hdf5_marker.c.

    Datasets are read whole into arrays sized by the dataset "n".  A dataset with more entries overruns its
    array and one with fewer leaves entries unset; both are [Overflow] (undefined behaviour).  Real numbers are
    exact.  The number of markers is assumed to fit an int.  HDF5 converts between numeric types by truncation
    and clipping. *)
From Coq Require Import Reals ZArith List String Bool Arith.
Import ListNotations.
From Verif Require Import MainModel HdfModel PhysModel.
Local Open Scope string_scope.
Local Open Scope R_scope.

(** consts.h:32,35 *)
Definition CONST_U : R := 1.660538921e-27.
Definition CONST_E : R := 1.602176565e-19.

Definition ftrunc (x : R) : Z := if Rlt_dec x 0 then (- Int_part (- x))%Z else Int_part x.
Definition clip (lo hi x : Z) : Z := Z.max lo (Z.min hi x).
Definition i32 (x : Z) : Z := clip (- 2 ^ 31) (2 ^ 31 - 1) x.
Definition i64 (x : Z) : Z := clip (- 2 ^ 63) (2 ^ 63 - 1) x.
Definition as_reals (d : dset) : list R := match d with DReal l => l | DInt l => map IZR l end.
Definition as_ints (d : dset) : list Z := match d with DReal l => map ftrunc l | DInt l => l end.
Definition exact {A} (n : nat) (l : list A) : outcome (list A) := if Nat.eqb (List.length l) n then Ok l else Overflow.
(** hdf5_read_double, hdf5_read_int, hdf5_read_long (hdf5_helpers.c:166-281) into an array of n entries *)
Definition read_double (f : h5) (var qid : string) (n : nat) : outcome (list R) :=
  match lookup f var qid with None => Rejected | Some d => exact n (as_reals d) end.
Definition read_int (f : h5) (var qid : string) (n : nat) : outcome (list Z) :=
  match lookup f var qid with None => Rejected | Some d => exact n (map i32 (as_ints d)) end.
Definition read_long (f : h5) (var qid : string) (n : nat) : outcome (list Z) :=
  match lookup f var qid with None => Rejected | Some d => exact n (map i64 (as_ints d)) end.

Record prt := mkp { p_r : R; p_phi : R; p_z : R; p_pr : R; p_pphi : R; p_pz : R; p_mass : R; p_charge : R;
                    p_anum : Z; p_znum : Z; p_weight : R; p_time : R; p_id : Z }.
Record gcm := mkg { g_r : R; g_phi : R; g_z : R; g_energy : R; g_pitch : R; g_zeta : R; g_mass : R; g_charge : R;
                    g_anum : Z; g_znum : Z; g_weight : R; g_time : R; g_id : Z }.
Record flm := mkl { l_r : R; l_phi : R; l_z : R; l_pitch : R; l_weight : R; l_time : R; l_id : Z }.
Inductive imark := IP (p : prt) | IGC (g : gcm) | IML (l : flm).

Definition gr (l : list R) (i : nat) : R := nth i l 0.
Definition gz (l : list Z) (i : nat) : Z := nth i l 0%Z.
(** the loop body of hdf5_marker.c:142-156 *)
Definition prt_of (r phi z v_r v_phi v_z mass : R) (charge anum znum : Z) (weight time : R) (id : Z) : prt :=
  let gamma := 1 / sqrt (1 - (v_r * v_r + v_phi * v_phi + v_z * v_z) / CONST_C2) in
  mkp r (phi * PI / 180) z (v_r * gamma * mass * CONST_U) (v_phi * gamma * mass * CONST_U) (v_z * gamma * mass * CONST_U)
      (mass * CONST_U) (IZR charge * CONST_E) anum znum weight time id.
(** the result: the number stored in *nmrk, if any, and the markers *)
Definition rmk := (option Z * outcome (list imark))%type.
Definition with_n (f : h5) (var qid : string) (k : nat -> outcome (list imark)) : rmk :=
  match read_long f var qid 1 with
  | Ok l => let n := gz l 0 in (Some n, if Z.ltb n 0 then Overflow else k (Z.to_nat n))
  | Rejected => (None, Rejected)
  | Overflow => (None, Overflow)
  end.
(** hdf5_marker_read_particle, hdf5_marker.c:87-173 *)
Definition read_particle (f : h5) (qid : string) : rmk :=
  let P x := "/marker/prt_XXXXXXXXXX/" ++ x in
  with_n f (P "n") qid (fun n =>
  bind (read_double f (P "r") qid n) (fun r => bind (read_double f (P "phi") qid n) (fun phi =>
  bind (read_double f (P "z") qid n) (fun z => bind (read_double f (P "vr") qid n) (fun v_r =>
  bind (read_double f (P "vphi") qid n) (fun v_phi => bind (read_double f (P "vz") qid n) (fun v_z =>
  bind (read_double f (P "mass") qid n) (fun mass => bind (read_int f (P "charge") qid n) (fun charge =>
  bind (read_int f (P "anum") qid n) (fun anum => bind (read_int f (P "znum") qid n) (fun znum =>
  bind (read_double f (P "weight") qid n) (fun weight => bind (read_double f (P "time") qid n) (fun time =>
  bind (read_long f (P "id") qid n) (fun id =>
  Ok (map (fun i => IP (prt_of (gr r i) (gr phi i) (gr z i) (gr v_r i) (gr v_phi i) (gr v_z i) (gr mass i) (gz charge i) (gz anum i)
                               (gz znum i) (gr weight i) (gr time i) (gz id i))) (seq 0 n)))))))))))))))).
(** hdf5_marker_read_guiding_center, hdf5_marker.c:189-273 *)
Definition read_guiding_center (f : h5) (qid : string) : rmk :=
  let P x := "/marker/gc_XXXXXXXXXX/" ++ x in
  with_n f (P "n") qid (fun n =>
  bind (read_double f (P "r") qid n) (fun r => bind (read_double f (P "phi") qid n) (fun phi =>
  bind (read_double f (P "z") qid n) (fun z => bind (read_double f (P "energy") qid n) (fun energy =>
  bind (read_double f (P "pitch") qid n) (fun pitch => bind (read_double f (P "zeta") qid n) (fun zeta =>
  bind (read_double f (P "mass") qid n) (fun mass => bind (read_int f (P "charge") qid n) (fun charge =>
  bind (read_int f (P "anum") qid n) (fun anum => bind (read_int f (P "znum") qid n) (fun znum =>
  bind (read_double f (P "weight") qid n) (fun weight => bind (read_double f (P "time") qid n) (fun time =>
  bind (read_long f (P "id") qid n) (fun id =>
  Ok (map (fun i => IGC (mkg (gr r i) (gr phi i * PI / 180) (gr z i) (gr energy i * CONST_E) (gr pitch i) (gr zeta i) (gr mass i * CONST_U)
                             (IZR (gz charge i) * CONST_E) (gz anum i) (gz znum i) (gr weight i) (gr time i) (gz id i))) (seq 0 n)))))))))))))))).
(** hdf5_marker_read_field_line, hdf5_marker.c:289-343 *)
Definition read_field_line (f : h5) (qid : string) : rmk :=
  let P x := "/marker/fl_XXXXXXXXXX/" ++ x in
  with_n f (P "n") qid (fun n =>
  bind (read_double f (P "r") qid n) (fun r => bind (read_double f (P "phi") qid n) (fun phi =>
  bind (read_double f (P "z") qid n) (fun z => bind (read_double f (P "pitch") qid n) (fun pitch =>
  bind (read_double f (P "weight") qid n) (fun weight => bind (read_double f (P "time") qid n) (fun time =>
  bind (read_long f (P "id") qid n) (fun id =>
  Ok (map (fun i => IML (mkl (gr r i) (gr phi i * PI / 180) (gr z i) (gr pitch i) (gr weight i) (gr time i) (gz id i))) (seq 0 n)))))))))).
(** hdf5_marker_read, hdf5_marker.c:41-73: return value 0, *n and *p.  Each group that exists is tried; a
    failed reader may already have changed *n. *)
Record mres := mkmres { m_ok : bool; m_n : option Z; m_p : option (list imark) }.
Definition try_group (f : h5) (tmpl qid : string) (rd : rmk) (s : outcome mres) : outcome mres :=
  bind s (fun s =>
  if negb (found_qid f tmpl qid) then Ok s
  else let n := match fst rd with Some n => Some n | None => m_n s end in
       match snd rd with
       | Ok l => Ok (mkmres true n (Some l))
       | Rejected => Ok (mkmres (m_ok s) n (m_p s))
       | Overflow => Overflow
       end).
Definition marker_read (f : h5) (qid : string) : outcome mres :=
  try_group f "/marker/fl_XXXXXXXXXX" qid (read_field_line f qid)
  (try_group f "/marker/gc_XXXXXXXXXX" qid (read_guiding_center f qid)
  (try_group f "/marker/prt_XXXXXXXXXX" qid (read_particle f qid) (Ok (mkmres false None None)))).

(** ** Writing *)
Definition set_dst (f : h5) (p : path) (d : dset) : h5 := mkh5 (grp f) (att f) (fun q => if path_dec q p then Some d else dst f q).
Definition dlength (d : dset) : nat := match d with DReal l => List.length l | DInt l => List.length l end.
(** hdf5_write_extendible_dataset_*, hdf5_helpers.c:327-433: the chunk size ceil(length/2) must be positive
    and the dataset new, otherwise nothing is created *)
Definition write_ds (f : h5) (g : path) (x : string * dset) : h5 :=
  let p := (g ++ [fst x])%list in
  if Nat.eqb (dlength (snd x)) 0 || is_some (dst f p) || grp f p then f else set_dst f p (snd x).
(** round(): half away from zero *)
Definition rnd (x : R) : Z := if Rle_dec 0 x then Int_part (x + 1 / 2) else (- Int_part (- x + 1 / 2))%Z.
(** hdf5_marker.c:384-404 *)
Definition wgamma (p : prt) : R := sqrt (1 + (p_pr p * p_pr p + p_pphi p * p_pphi p + p_pz p * p_pz p) / (CONST_C2 * p_mass p)).
Definition prt_sets (ps : list prt) : list (string * dset) :=
  let v q p := q / (p_mass p * wgamma p) in
  [("n", DInt [Z.of_nat (List.length ps)]); ("r", DReal (map p_r ps)); ("phi", DReal (map (fun p => p_phi p * 180 / PI) ps)); ("z", DReal (map p_z ps));
   ("vr", DReal (map (fun p => v (p_pr p) p) ps)); ("vphi", DReal (map (fun p => v (p_pphi p) p) ps)); ("vz", DReal (map (fun p => v (p_pz p) p) ps));
   ("mass", DReal (map (fun p => p_mass p / CONST_U) ps)); ("charge", DInt (map (fun p => rnd (p_charge p / CONST_E)) ps));
   ("anum", DInt (map p_anum ps)); ("znum", DInt (map p_znum ps)); ("weight", DReal (map p_weight ps)); ("time", DReal (map p_time ps));
   ("id", DInt (map p_id ps))].
(** hdf5_marker_write_particle, hdf5_marker.c:359-438; without the new group every write fails *)
Definition write_particle (f : h5) (ps : list prt) (qid : string) : h5 :=
  let f := if found f "/marker/" then f else add_group f ["marker"] in
  match gen_path "/marker/prt_XXXXXXXXXX" qid with
  | None => f
  | Some path => if found f path then f else fold_left (fun f x => write_ds f (comps path) x) (prt_sets ps) (add_group f (comps path))
  end.
