(** Model of src/diag/diag_orb.c: orbit history with interval recording and
    Poincare planes.  The per-field arrays are functions of the position; a
    recorded point is a partial assignment of fields. *)
From Coq Require Import Reals ZArith List Bool.
From Verif Require Import MathModel.
Import ListNotations.
Local Open Scope R_scope.

(** diag_orb.h:47-67 *)
Inductive fld := Fid | Fmil | Fr | Fphi | Fz | Fpr | Fpphi | Fpz | Fppar | Fmu | Fzeta
               | Fw | Fq | Frho | Fth | FBr | FBphi | FBz | Fsim | Fpid | Fpdi.
(** marker kind: particle, guiding centre, field line; diag_orb.h:23-25 *)
Inductive kind := FO | GC | ML.
Definition simcode (k : kind) : R := match k with FO => 1 | GC => 2 | ML => 3 end.

(** one slot of a SIMD marker struct *)
Record mk := MK { m_id : Z; m_index : nat; m_endcond : Z; m_val : fld -> R }.

(** marker coordinates copied for each kind: diag_orb.c:230-244, 433-447, 640-650 *)
Definition coord (k : kind) (f : fld) : bool :=
  match f with
  | Fmil | Fr | Fphi | Fz | Frho | Fth | FBr | FBphi | FBz => true
  | Fw | Fq => match k with ML => false | _ => true end
  | Fpr | Fpphi | Fpz => match k with FO => true | _ => false end
  | Fppar | Fmu | Fzeta => match k with GC => true | _ => false end
  | _ => false
  end.

Definition point := fld -> option R.
(** diag_orb.c:230-245 (and the analogous blocks): a marker's own state *)
Definition pt_state (k : kind) (p : mk) : point := fun f =>
  match f with
  | Fid => Some (IZR (m_id p))
  | Fsim => Some (simcode k)
  | _ => if coord k f then Some (m_val p f) else None
  end.
(** diag_orb.c:318-335: interpolated crossing point; [sim] and [dir] tell
    whether simmode and pncrdi are written *)
Definition pt_cross (kd : kind) (pf pi : mk) (k d : R) (pid : Z) (dir : option R) (sim : bool) : point := fun f =>
  match f with
  | Fid => Some (IZR (m_id pf))
  | Fsim => if sim then Some (simcode kd) else None
  | Fpid => Some (IZR pid)
  | Fpdi => dir
  | Fq => if coord kd Fq then Some (m_val pi Fq) else None
  | _ => if coord kd f then Some (k * m_val pf f + d * m_val pi f) else None
  end.

Record cfg := CFG { npnt : nat; nmrk : nat; interval_mode : bool; wint : R;
                    tor : list R; pol : list R; rad : list R }.
Record orb := ORB { arr : fld -> nat -> R; pnt : nat -> nat; recd : nat -> R }.

Definition upd {A} (a : nat -> A) (i : nat) (v : A) : nat -> A := fun j => if Nat.eqb j i then v else a j.
Definition write (a : fld -> nat -> R) (idx : nat) (p : point) : fld -> nat -> R :=
  fun f i => if Nat.eqb i idx then match p f with Some v => v | None => a f i end else a f i.

(** diag_orb.c:228,247-252: store a point, advance and wrap the local counter,
    store counter and mileage *)
Definition push (c : cfg) (imrk : nat) (st : orb * nat) (p : point) (mil : R) : orb * nat :=
  let '(d, ipoint) := st in
  let idx := (imrk * npnt c + ipoint)%nat in
  let a := write (arr d) idx p in
  let ip := S ipoint in
  let ip := if Nat.eqb ip (npnt c) then 0%nat else ip in
  (ORB a (upd (pnt d) imrk ip) (upd (recd d) imrk mil), ip).

(** diag_orb.c:219-288 (417-494, 629-690): interval recording of one marker *)
Definition is0 (x : R) : bool := if Req_EM_T x 0 then true else false.
Definition leb (x y : R) : bool := if Rle_dec x y then true else false.
Definition ltb (x y : R) : bool := if Rlt_dec x y then true else false.
Definition upd_interval (c : cfg) (kd : kind) (d : orb) (pf pi : mk) : orb :=
  if (0 <? m_id pf)%Z then
    let imrk := m_index pf in
    let st := (d, pnt d imrk) in
    let st := if is0 (arr d Fid (imrk * npnt c)%nat)
              then push c imrk st (pt_state kd pi) (m_val pi Fmil) else st in
    let dt := recd (fst st) imrk + wint c - m_val pf Fmil in
    let st := if (leb dt 0 || (0 <? m_endcond pf)%Z)%bool
              then push c imrk st (pt_state kd pf) (m_val pf Fmil) else st in
    fst st
  else d.

(** diag_orb.c:808-828; CONST_2PI is twice pi *)
Definition check_plane (fang iang ang0 : R) : R :=
  if Req_EM_T (floorR ((fang - ang0) / (2 * PI))) (floorR ((iang - ang0) / (2 * PI))) then 0
  else
    let a := fmod iang (2 * PI) in
    let a := if Rlt_dec a 0 then 2 * PI + a else a in
    let a := Rabs (ang0 - a) in
    let a := if Rlt_dec PI a then 2 * PI - a else a in
    Rabs (a / (fang - iang)).
(** diag_orb.c:842-849 *)
Definition check_radial (frho irho rho0 : R) : R :=
  if ((leb frho rho0 && ltb rho0 irho) || (leb irho rho0 && ltb rho0 frho))%bool
  then Rabs ((irho - rho0) / (frho - irho)) else 0.

(** direction 1 - 2 * (f < i) *)
Definition direction (f i : R) : R := if Rlt_dec f i then -1 else 1.

(** a loop over planes: crossing test [chk], weights from k, plane numbers from
    [base]; diag_orb.c:312-343, 346-377 *)
Fixpoint planes (c : cfg) (imrk : nat) (mil : R) (chk : R -> R) (mkpt : R -> Z -> point)
         (base : Z) (l : list R) (st : orb * nat) : orb * nat :=
  match l with
  | [] => st
  | a :: t =>
      let k := chk a in
      let st := if is0 k then st else push c imrk st (mkpt k base) mil in
      planes c imrk mil chk mkpt (base + 1)%Z t st
  end.

(** diag_orb.c:290-406 (495-613, 691-793): Poincare recording of one marker *)
Definition upd_poincare (c : cfg) (kd : kind) (d : orb) (pf pi : mk) : orb :=
  if ((0 <? m_id pf)%Z && negb (is0 (m_val pf Fmil - m_val pi Fmil)))%bool then
    let imrk := m_index pf in
    let mil := m_val pf Fmil in
    let st := (d, pnt d imrk) in
    let nt := Z.of_nat (length (tor c)) in
    let np := Z.of_nat (length (pol c)) in
    let st := planes c imrk mil (fun a => check_plane (m_val pf Fphi) (m_val pi Fphi) a)
                (fun k j => pt_cross kd pf pi k (1 - k) j (Some (direction (m_val pf Fphi) (m_val pi Fphi))) true) 0 (tor c) st in
    let st := planes c imrk mil (fun a => check_plane (m_val pf Fth) (m_val pi Fth) a)
                (fun k j => pt_cross kd pf pi k (1 - k) j (Some (direction (m_val pf Fth) (m_val pi Fth))) true) nt (pol c) st in
    let st := planes c imrk mil (fun a => check_radial (m_val pf Frho) (m_val pi Frho) a)
                (fun k j => match kd with
                  | FO => pt_cross kd pf pi (1 - k) k j (Some (direction (m_val pf Frho) (m_val pi Frho))) false
                  | GC => pt_cross kd pf pi k (1 - k) j (Some (direction (m_val pf Frho) (m_val pi Frho))) false
                  | ML => pt_cross kd pf pi k (1 - k) j None false
                  end) (nt + np)%Z (rad c) st in
    fst st
  else d.

(** the SIMD loop of diag_orb_update_fo/gc/ml *)
Definition update (c : cfg) (kd : kind) (d : orb) (l : list (mk * mk)) : orb :=
  fold_left (fun d p => if interval_mode c then upd_interval c kd d (fst p) (snd p)
                        else upd_poincare c kd d (fst p) (snd p)) l d.
(** a simulation: a sequence of time steps *)
Definition run (c : cfg) (steps : list (kind * list (mk * mk))) (d : orb) : orb :=
  fold_left (fun d s => update c (fst s) d (snd s)) steps d.

(** diag_orb.c:26-112: everything zero *)
Definition orb_init : orb := ORB (fun _ _ => 0) (fun _ => 0%nat) (fun _ => 0).

(** arrays allocated by diag_orb_init for each record mode, diag_orb.c:29-104 *)
Inductive rmode := RFO | RGC | RML | RHYB.
Definition allocated (m : rmode) (poincare : bool) (f : fld) : bool :=
  match f with
  | Fid => true
  | Fpid | Fpdi => poincare
  | Fmil | Fr | Fphi | Fz | Frho | Fth | FBr | FBphi | FBz | Fsim => true
  | Fw | Fq => match m with RML => false | _ => true end
  | Fpr | Fpphi | Fpz => match m with RFO | RHYB => true | _ => false end
  | Fppar | Fmu | Fzeta => match m with RGC | RHYB => true | _ => false end
  end.
