(** Reading the neutral beam injectors: hdf5io/hdf5_nbi.c:25-145 and the initialisation nbi.c:22-89.

    Reading an array whose length differs from the size of the buffer is undefined, as in HinModel.  Numbers
    of injectors and beamlets are natural numbers; a negative one is undefined.  Printouts and memory that is
    not freed are left out. *)
From Coq Require Import Reals ZArith List String DecimalString.
Import ListNotations.
From Verif Require Import MainModel HdfModel HmkModel NbiModel.
Local Open Scope string_scope.

Definition NBIPATH : string := "/nbi/nbi_XXXXXXXXXX/".
(** NBIPATH "inj%d/%s" with i + 1 *)
Definition inj_path (i : nat) (name : string) : string := NBIPATH ++ "inj" ++ NilEmpty.string_of_uint (Nat.to_uint (i + 1)) ++ "/" ++ name.

(** entries of the arrays that the first loop fills *)
Record raw := mkraw { w_id : Z; w_nbeamlet : Z; w_power : R; w_energy : R; w_efrac : list R; w_div_h : R; w_div_v : R;
                      w_halo_frac : R; w_halo_h : R; w_halo_v : R; w_anum : Z; w_znum : Z; w_mass : R }.
Definition int1 (f : h5) (qid p : string) : outcome Z := bind (read_int f p qid 1) (fun l => Ok (nth 0 l 0%Z)).
Definition real1 (f : h5) (qid p : string) : outcome R := bind (read_double f p qid 1) (fun l => Ok (nth 0 l 0%R)).
(** hdf5_nbi.c:61-110 *)
Definition read_raw (f : h5) (qid : string) (i : nat) : outcome raw :=
  bind (int1 f qid (inj_path i "ids")) (fun id =>
  bind (int1 f qid (inj_path i "nbeamlet")) (fun nbeamlet =>
  bind (real1 f qid (inj_path i "power")) (fun power =>
  bind (real1 f qid (inj_path i "energy")) (fun energy =>
  bind (read_double f (inj_path i "efrac") qid 3) (fun efrac =>
  bind (real1 f qid (inj_path i "divh")) (fun div_h =>
  bind (real1 f qid (inj_path i "divv")) (fun div_v =>
  bind (real1 f qid (inj_path i "divhalofrac")) (fun div_halo_frac =>
  bind (real1 f qid (inj_path i "divhaloh")) (fun div_halo_h =>
  bind (real1 f qid (inj_path i "divhalov")) (fun div_halo_v =>
  bind (int1 f qid (inj_path i "anum")) (fun anum =>
  bind (int1 f qid (inj_path i "znum")) (fun znum =>
  bind (real1 f qid (inj_path i "mass")) (fun mass =>
  if (nbeamlet <? 0)%Z then Overflow else
  Ok (mkraw id nbeamlet power (energy * HmkModel.CONST_E)%R efrac div_h div_v div_halo_frac div_halo_h div_halo_v anum znum (mass * HmkModel.CONST_U)%R)))))))))))))).
Fixpoint read_raws (f : h5) (qid : string) (i n : nat) : outcome (list raw) :=
  match n with O => Ok [] | S n => bind (read_raw f qid i) (fun r => bind (read_raws f qid (S i) n) (fun l => Ok (r :: l))) end.

(** beamlet_xyz; reading a dataset to the position off *)
Definition blit (m : nat -> R) (off : nat) (l : list R) : nat -> R :=
  fun k => if (Nat.leb off k && Nat.ltb k (off + List.length l))%bool then nth (k - off) l 0%R else m k.
Definition read_at (f : h5) (qid : string) (p : string) (n off : nat) (m : nat -> R) : outcome (nat -> R) :=
  bind (read_double f p qid n) (fun l => Ok (blit m off l)).
(** hdf5_nbi.c:113-138 *)
Fixpoint read_beamlets (f : h5) (qid : string) (i idx : nat) (ns : list nat) (m : nat -> R) : outcome (nat -> R) :=
  match ns with
  | [] => Ok m
  | n :: ns =>
    bind (read_at f qid (inj_path i "beamletx") n (idx + 0 * n) m) (fun m =>
    bind (read_at f qid (inj_path i "beamlety") n (idx + 1 * n) m) (fun m =>
    bind (read_at f qid (inj_path i "beamletz") n (idx + 2 * n) m) (fun m =>
    bind (read_at f qid (inj_path i "beamletdx") n (idx + 3 * n) m) (fun m =>
    bind (read_at f qid (inj_path i "beamletdy") n (idx + 4 * n) m) (fun m =>
    bind (read_at f qid (inj_path i "beamletdz") n (idx + 5 * n) m) (fun m =>
    read_beamlets f qid (S i) (idx + 6 * n) ns m))))))
  end.

(** nbi_init, nbi.c:22-89: identifier and injector *)
Definition nbi_init (ninj : nat) (id anum znum : list Z) (mass power efrac energy div_h div_v div_halo_v div_halo_h div_halo_frac : list R)
    (nbeamlet : list Z) (beamlet_xyz : nat -> R) : list (Z * injector) :=
  map (fun i => let z l := nth i l 0%Z in let x l := nth i l 0%R in let e k := nth (3 * i + k) efrac 0%R in
         (z id, halo_default (INJ (z anum) (z znum) (x mass) (x power) (x energy) (e 0) (e 1) (e 2) (x div_h) (x div_v) (x div_halo_frac) (x div_halo_h) (x div_halo_v)
                  (nth i (nbi_beamlets beamlet_xyz 0 (map Z.to_nat nbeamlet)) (BL 0 (fun _ => 0%R) (fun _ => 0%R) (fun _ => 0%R) (fun _ => 0%R) (fun _ => 0%R) (fun _ => 0%R))))))
      (seq 0 ninj).
(** hdf5_nbi_init, hdf5_nbi.c:25-145; m is what malloc returned *)
Definition hdf5_nbi_init (f : h5) (qid : string) (m : nat -> R) : outcome (list (Z * injector)) :=
  if negb (found_qid f NBIPATH qid) then Rejected else
  bind (int1 f qid (NBIPATH ++ "ninj")) (fun ninj =>
  if (ninj <? 0)%Z then Overflow else
  bind (read_raws f qid 0 (Z.to_nat ninj)) (fun ws =>
  bind (read_beamlets f qid 0 0 (map (fun w => Z.to_nat (w_nbeamlet w)) ws) m) (fun m =>
  Ok (nbi_init (Z.to_nat ninj) (map w_id ws) (map w_anum ws) (map w_znum ws) (map w_mass ws) (map w_power ws) (flat_map w_efrac ws) (map w_energy ws)
        (map w_div_h ws) (map w_div_v ws) (map w_halo_v ws) (map w_halo_h ws) (map w_halo_frac ws) (map w_nbeamlet ws) m)))).
