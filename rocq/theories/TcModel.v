(** Model of src/diag/diag_transcoef.c (transport coefficient diagnostics).
    Real arithmetic is exact, CONST_2PI and CONST_PI are 2 pi and pi, int arithmetic does not
    overflow.  The heap maps addresses to live links; malloc returns an address never used
    before and does not fail.  Reading or freeing an address that is not live, dividing by zero
    and indexing outside an array give None; the while loops take fuel and running out of it
    gives None as well.  The calls for one marker are steps of a sequential run. *)
From Coq Require Import Reals ZArith List Bool Lra.
From Verif Require Import MathModel.
Import ListNotations.
Local Open Scope R_scope.

(** diag_transcoef.h:16-21 *)
Record link := Link { l_rho : R; l_time : R; l_sign : Z; l_prev : option nat }.
(** diag_transcoef.h:26-41; the arrays are functions of the marker index, the coefficients are
    None until they are stored (they are not initialised) *)
Record par := Par { p_navg : Z; p_recordrho : bool; p_interval : R }.
Record tc := Tc { heap : nat -> option link; fresh : nat; dp : nat -> option nat;
                  o_id : nat -> Z; o_K : nat -> option R; o_D : nat -> option R }.
Definition upd {A} (f : nat -> A) (i : nat) (x : A) : nat -> A := fun j => if Nat.eqb j i then x else f j.

(** diag_transcoef.c:30-40 *)
Definition tc_init : tc := Tc (fun _ => None) 0 (fun _ => None) (fun _ => (-1)%Z) (fun _ => None) (fun _ => None).

(** diag_transcoef.c:342-360; C fmod truncates, for a negative quotient the code adds the period *)
Definition fmodc (x y : R) : R := if Rle_dec 0 (x / y) then fmod x y else - fmod (- x) y.
Definition crossing (fang iang : R) : R :=
  if Req_EM_T (floorR (fang / (2 * PI))) (floorR (iang / (2 * PI))) then 0 else
  let a := fmodc iang (2 * PI) in
  let a := if Rlt_dec a 0 then 2 * PI + a else a in
  let a := Rabs a in
  let a := if Rlt_dec PI a then 2 * PI - a else a in
  Rabs (a / (fang - iang)).

(** diag_transcoef.c:70, 100, 131; b is the dot product, ppar or pitch *)
Definition pitchsign (b : R) : Z := (if Rlt_dec b 0 then 1 - 2 * 1 else 1 - 2 * 0)%Z.

(** diag_transcoef.c:166-213 *)
Definition record (c : par) (s : tc) (index : nat) (id : Z) (rho r : R) (sign : Z) (tf ti thf thi : R) : option tc :=
  if (id >? 0)%Z then
    let rec :=
      if Rlt_dec ti tf then
        match dp s index with
        | None => Some (crossing thf thi)
        | Some a => match heap s a with
                    | None => None
                    | Some k => if Rlt_dec (p_interval c) (tf - l_time k) then Some (crossing thf thi) else Some 0
                    end
        end
      else Some 0 in
    match rec with
    | None => None
    | Some rec =>
      if Rlt_dec 0 rec then
        let prev := match dp s index with None => None | Some a => Some a end in
        let l := Link (if p_recordrho c then rho else r) tf sign prev in
        Some (Tc (upd (heap s) (fresh s) (Some l)) (S (fresh s)) (upd (dp s) index (Some (fresh s))) (o_id s) (o_K s) (o_D s))
      else Some s
    end
  else Some s.

(** diag_transcoef.c:229-239 *)
Fixpoint count (fuel : nat) (h : nat -> option link) (l : option nat) (pos neg : Z) : option (Z * Z) :=
  match l with
  | None => Some (pos, neg)
  | Some a =>
    match fuel, h a with
    | S f, Some k => if (l_sign k <? 0)%Z then count f h (l_prev k) pos (neg + 1) else count f h (l_prev k) (pos + 1) neg
    | _, _ => None
    end
  end.

(** diag_transcoef.c:262-264, 274-276, 289-291: while(link->pitchsign * sign < 0) *)
Fixpoint seek (fuel : nat) (h : nat -> option link) (l : option nat) (sign : Z) : option link :=
  match l with
  | None => None
  | Some a =>
    match h a with
    | None => None
    | Some k => if (l_sign k * sign <? 0)%Z then match fuel with O => None | S f => seek f h (l_prev k) sign end else Some k
    end
  end.

(** diag_transcoef.c:272-279 and 287-294: m times the next link of the sign is added *)
Fixpoint gather (fuel m : nat) (h : nat -> option link) (sign : Z) (k : link) (rho time : R) : option (link * R * R) :=
  match m with
  | O => Some (k, rho, time)
  | S m => match seek fuel h (l_prev k) sign with
           | None => None
           | Some k => gather fuel m h sign k (rho + l_rho k) (time + l_time k)
           end
  end.

(** x / n for an int n *)
Definition rdiv (x y : R) : option R := if Req_EM_T y 0 then None else Some (x / y).

(** diag_transcoef.c:284-297; the arrays are filled from the last element down, the filled part is a list *)
Fixpoint groups (fuel : nat) (h : nat -> option link) (sign navg : Z) (n : nat) (k : link) (pts : list (R * R)) : option (list (R * R)) :=
  match n with
  | O => Some pts
  | S n =>
    match gather fuel (Z.to_nat navg) h sign k 0 0 with
    | None => None
    | Some (k, rho, time) =>
      match rdiv rho (IZR navg), rdiv time (IZR navg) with
      | Some rho, Some time => groups fuel h sign navg n k ((rho, time) :: pts)
      | _, _ => None
      end
    end
  end.

(** diag_transcoef.c:300-304 *)
Fixpoint sumK (pts : list (R * R)) (K : R) : option R :=
  match pts with
  | p :: (q :: _) as rest =>
      match rdiv (fst q - fst p) (snd q - snd p) with None => None | Some x => sumK rest (K + x) end
  | _ => Some K
  end.
(** diag_transcoef.c:306-311 *)
Fixpoint sumD (K : R) (pts : list (R * R)) (D : R) : option R :=
  match pts with
  | p :: (q :: _) as rest =>
      let a := fst q - fst p - K * (snd q - snd p) in
      match rdiv (0.5 * a * a) (snd q - snd p) with None => None | Some x => sumD K rest (D + x) end
  | _ => Some D
  end.

(** diag_transcoef.c:256-297: the averaged points, oldest first *)
Definition averages (fuel : nat) (h : nat -> option link) (first : option nat) (sign navg datasize : Z) : option (list (R * R)) :=
  if (navg =? 0)%Z then None else
  let navgpnt := Z.quot datasize navg in
  if (navgpnt <? 1)%Z then None else
  match seek fuel h first sign with
  | None => None
  | Some k =>
    let nextra := (datasize - navgpnt * navg)%Z in
    let nextra := if (nextra =? 0)%Z then navg else nextra in
    match gather fuel (Z.to_nat (nextra - 1)) h sign k (l_rho k) (l_time k) with
    | None => None
    | Some (k, rho, time) =>
      match rdiv rho (IZR nextra), rdiv time (IZR nextra) with
      | Some rho, Some time => groups fuel h sign navg (Z.to_nat (navgpnt - 1)) k [(rho, time)]
      | _, _ => None
      end
    end
  end.

(** diag_transcoef.c:299-311 *)
Definition coefs (pts : list (R * R)) : option (R * R) :=
  let n := INR (length pts) in
  match sumK pts 0 with
  | None => None
  | Some K =>
    match rdiv K n with
    | None => None
    | Some K => match sumD K pts 0 with
                | None => None
                | Some D => match rdiv D n with None => None | Some D => Some (K, D) end
                end
    end
  end.

(** diag_transcoef.c:321-328 *)
Fixpoint clean (fuel : nat) (h : nat -> option link) (l : option nat) : option (nat -> option link) :=
  match l with
  | None => Some h
  | Some a =>
    match fuel, h a with
    | S f, Some k => clean f (upd h a None) (l_prev k)
    | _, _ => None
    end
  end.

(** diag_transcoef.c:225-331 *)
Definition process (fuel : nat) (c : par) (s : tc) (index : nat) (id : Z) : option tc :=
  match count fuel (heap s) (dp s index) 0 0 with
  | None => None
  | Some (pos, neg) =>
    let '(datasize, sign) := if (pos >=? neg)%Z then (pos, 1%Z) else (neg, (-1)%Z) in
    let out :=
      if (datasize >? p_navg c)%Z then
        match averages fuel (heap s) (dp s index) sign (p_navg c) datasize with
        | None => None
        | Some pts => match coefs pts with None => None | Some KD => Some (Some KD) end
        end
      else Some None in
    match out with
    | None => None
    | Some out =>
      match clean fuel (heap s) (dp s index) with
      | None => None
      | Some h =>
        let d := upd (dp s) index None in
        match out with
        | None => Some (Tc h (fresh s) d (o_id s) (o_K s) (o_D s))
        | Some (K, D) => Some (Tc h (fresh s) d (upd (o_id s) index id) (upd (o_K s) index (Some K)) (upd (o_D s) index (Some D)))
        end
      end
    end
  end.

(** one call of diag_transcoef_update_* for one marker, diag_transcoef.c:63-85, 97-116, 128-146:
    a record, and processing if the marker is real and not running *)
Record ev := Ev { e_index : nat; e_id : Z; e_running : Z; e_rho : R; e_r : R; e_b : R; e_tf : R; e_ti : R; e_thf : R; e_thi : R }.
Definition update (fuel : nat) (c : par) (s : tc) (e : ev) : option tc :=
  match record c s (e_index e) (e_id e) (e_rho e) (e_r e) (pitchsign (e_b e)) (e_tf e) (e_ti e) (e_thf e) (e_thi e) with
  | None => None
  | Some s => if ((e_id e <? 1) || (e_running e >? 0))%Z then Some s else process fuel c s (e_index e) (e_id e)
  end.
Fixpoint run (fuel : nat) (c : par) (s : tc) (es : list ev) : option tc :=
  match es with
  | [] => Some s
  | e :: es => match update fuel c s e with None => None | Some s => run fuel c s es end
  end.
