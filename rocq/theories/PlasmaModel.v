(** Model of src/plasma/plasma_1D.c, plasma_1Dt.c, plasma_1DS.c and of the evaluation
    functions of src/plasma.c.

    Exact arithmetic.  Tables are flat arrays with a size; an access outside is the outcome
    [Bad].  Initialisation is written by table entry instead of by loop; the printed summary
    is left out except for the reads it makes.  malloc is taken to succeed. *)
From Coq Require Import Reals List ZArith Bool.
From Verif Require Import AxisModel SplineModel ErrorModel.
Import ListNotations.
Local Open Scope R_scope.

Inductive pres (A : Type) := Fail (e : Z) | Bad | Good (a : A).
Arguments Fail {A} e. Arguments Bad {A}. Arguments Good {A} a.
Definition rd {A} (a : arr) (idx : list Z) (k : pres A) : pres A := if forallb (inb a) idx then k else Bad.
Definition range (n : Z) : list Z := map Z.of_nat (seq 0 (Z.to_nat n)).

(** "int i = 0; while(i < n-1 && x[i] <= v) i++; i--;" *)
Fixpoint scan (a : Z -> R) (v : R) (fuel : nat) (i : Z) : Z :=
  match fuel with O => i | S f => if Rle_dec (a i) v then scan a v f (i + 1)%Z else i end.
Definition locate (a : Z -> R) (n : Z) (v : R) : Z := (scan a v (Z.to_nat (n - 1)) 0 - 1)%Z.
Definition lin (p1 p2 t : R) : R := p1 + t * (p2 - p1).

(** ** plasma_1D.c *)
Record p1d := P1 { p_nrho : Z; p_nsp : Z; p_rho : arr; p_temp : arr; p_dens : arr; p_vtor : arr }.
(** plasma_1D.c:25-57; [ni] is indexed j*nrho + i *)
Definition plasma_1D_init (nrho nion : Z) (rho Te Ti ne ni vtor : Z -> R) : p1d :=
  P1 nrho (nion + 1) (Arr nrho rho)
     (Arr (2 * nrho) (fun m => if (m <? nrho)%Z then Te m else Ti (m - nrho)%Z))
     (Arr ((nion + 1) * nrho) (fun m => if (m <? nrho)%Z then ne m else ni (m - nrho)%Z))
     (Arr nrho vtor).
Definition rho_out (rho : arr) (n : Z) (x : R) : option bool :=
  if Rlt_dec x (aget rho 0) then Some true else if Rle_dec (aget rho (n - 1)%Z) x then Some false else None.
Definition b2z (b : bool) : Z := if b then 1%Z else 0%Z.
(** plasma_1D.c:147-175; [s] species *)
Definition plasma_1D_eval_temp (d : p1d) (x : R) (s : Z) : pres R :=
  rd (p_rho d) [0; p_nrho d - 1]%Z
  match rho_out (p_rho d) (p_nrho d) x with
  | Some true => Fail (error_raise ERR_INPUT_EVALUATION 152 EF_PLASMA_1D)
  | Some false => Fail (error_raise ERR_INPUT_EVALUATION 155 EF_PLASMA_1D)
  | None =>
      let i := locate (aget (p_rho d)) (p_nrho d) x in
      let t := (x - aget (p_rho d) i) / (aget (p_rho d) (i + 1)%Z - aget (p_rho d) i) in
      let m := (b2z (0 <? s) * p_nrho d + i)%Z in
      rd (p_rho d) [i; i + 1]%Z (rd (p_temp d) [m; m + 1]%Z (Good (lin (aget (p_temp d) m) (aget (p_temp d) (m + 1)%Z) t)))
  end.
(** plasma_1D.c:187-213 *)
Definition plasma_1D_eval_dens (d : p1d) (x : R) (s : Z) : pres R :=
  rd (p_rho d) [0; p_nrho d - 1]%Z
  match rho_out (p_rho d) (p_nrho d) x with
  | Some true => Fail (error_raise ERR_INPUT_EVALUATION 192 EF_PLASMA_1D)
  | Some false => Fail (error_raise ERR_INPUT_EVALUATION 195 EF_PLASMA_1D)
  | None =>
      let i := locate (aget (p_rho d)) (p_nrho d) x in
      let t := (x - aget (p_rho d) i) / (aget (p_rho d) (i + 1)%Z - aget (p_rho d) i) in
      let m := (s * p_nrho d + i)%Z in
      rd (p_rho d) [i; i + 1]%Z (rd (p_dens d) [m; m + 1]%Z (Good (lin (aget (p_dens d) m) (aget (p_dens d) (m + 1)%Z) t)))
  end.
(** plasma_1D.c:228-265; the result gives density and temperature of species i *)
Definition plasma_1D_eval_densandtemp (d : p1d) (x : R) : pres (Z -> R * R) :=
  rd (p_rho d) [0; p_nrho d - 1]%Z
  match rho_out (p_rho d) (p_nrho d) x with
  | Some true => Fail (error_raise ERR_INPUT_EVALUATION 231 EF_PLASMA_1D)
  | Some false => Fail (error_raise ERR_INPUT_EVALUATION 234 EF_PLASMA_1D)
  | None =>
      let n := p_nrho d in
      let i := locate (aget (p_rho d)) n x in
      let t := (x - aget (p_rho d) i) / (aget (p_rho d) (i + 1)%Z - aget (p_rho d) i) in
      let tb := aget (p_temp d) in let db := aget (p_dens d) in
      rd (p_rho d) [i; i + 1]%Z
      (rd (p_dens d) (flat_map (fun s => [s * n + i; s * n + i + 1]%Z) (range (p_nsp d)))
      (rd (p_temp d) (flat_map (fun s => [s * n + i; s * n + i + 1]%Z) (range (Z.min 2 (p_nsp d))))
      (Good (fun s => (lin (db (s * n + i)%Z) (db (s * n + i + 1)%Z) t,
                       let s' := if (s <? 2)%Z then s else 1%Z in lin (tb (s' * n + i)%Z) (tb (s' * n + i + 1)%Z) t)))))
  end.
(** plasma_1D.c:276-296: error and the value left in *vflow ([old] before the call) *)
Definition plasma_1D_eval_flow (d : p1d) (x r old : R) : pres (Z * R) :=
  rd (p_rho d) [0; p_nrho d - 1]%Z
  match rho_out (p_rho d) (p_nrho d) x with
  | Some true => Good (error_raise ERR_INPUT_EVALUATION 280 EF_PLASMA_1D, old * r)
  | Some false => Good (error_raise ERR_INPUT_EVALUATION 283 EF_PLASMA_1D, old * r)
  | None =>
      let i := locate (aget (p_rho d)) (p_nrho d) x in
      rd (p_vtor d) [i] (Good (0%Z, aget (p_vtor d) i * r))
  end.

(** ** plasma_1Dt.c *)
Record p1t := P2 { q_nrho : Z; q_ntime : Z; q_nsp : Z; q_rho : arr; q_time : arr; q_temp : arr; q_dens : arr; q_vtor : arr }.
(** plasma_1Dt.c:22-65 *)
Definition plasma_1Dt_init (nrho ntime nion : Z) (rho time Te Ti ne ni vtor : Z -> R) : p1t :=
  P2 nrho ntime (nion + 1) (Arr nrho rho) (Arr ntime time)
     (Arr (2 * nrho * ntime) (fun m => let q := (m / nrho)%Z in let i := (m mod nrho)%Z in
        if Z.even q then Te (q / 2 * nrho + i)%Z else Ti (q / 2 * nrho + i)%Z))
     (Arr ((nion + 1) * nrho * ntime) (fun m => if (m <? nrho * ntime)%Z then ne m else ni (m - nrho * ntime)%Z))
     (Arr (nrho * ntime) vtor).
(** the reads of dens made for the quasi-neutrality printout (plasma_1Dt.c:101-112) *)
Definition plasma_1Dt_init_reads (nrho ntime nion : Z) : list Z :=
  flat_map (fun k => (ntime + nrho + k)%Z :: map (fun _ => (nrho * ntime + ntime + nrho * (2 + 1) + k)%Z) (range nion)) (range nrho).
(** plasma_1Dt.c:239-256 *)
Definition time_cell (d : p1t) (t : R) : pres (Z * R) :=
  let i := locate (aget (q_time d)) (q_ntime d) t in
  let w := (t - aget (q_time d) i) / (aget (q_time d) (i + 1)%Z - aget (q_time d) i) in
  rd (q_time d) [i; i + 1]%Z
  (Good (if (i <? 0)%Z then (0%Z, 0) else if (q_ntime d - 2 <=? i)%Z then ((q_ntime d - 2)%Z, 1) else (i, w))).
Definition bilin (p11 p12 p21 p22 a b : R) : R := lin (lin p11 p12 a) (lin p21 p22 a) b.
(** plasma_1Dt.c:220-303 *)
Definition plasma_1Dt_eval_densandtemp (d : p1t) (x t : R) : pres (Z -> R * R) :=
  rd (q_rho d) [0; q_nrho d - 1]%Z
  match rho_out (q_rho d) (q_nrho d) x with
  | Some true => Fail (error_raise ERR_INPUT_EVALUATION 225 EF_PLASMA_1D)
  | Some false => Fail (error_raise ERR_INPUT_EVALUATION 228 EF_PLASMA_1D)
  | None =>
      let n := q_nrho d in let ns := q_nsp d in
      let i := locate (aget (q_rho d)) n x in
      let tr := (x - aget (q_rho d) i) / (aget (q_rho d) (i + 1)%Z - aget (q_rho d) i) in
      rd (q_rho d) [i; i + 1]%Z
      match time_cell d t with
      | Good (j, tw) =>
          let di := fun j s => (j * ns * n + s * n + i)%Z in
          let ti := fun j s => (j * 2 * n + s * n + i)%Z in
          let db := aget (q_dens d) in let tb := aget (q_temp d) in
          rd (q_dens d) (flat_map (fun s => [di j s; di j s + 1; di (j + 1) s; di (j + 1) s + 1]%Z) (range ns))
          (rd (q_temp d) (flat_map (fun s => [ti j s; ti j s + 1; ti (j + 1) s; ti (j + 1) s + 1]%Z) (range (Z.min 2 ns)))
          (Good (fun s =>
             (bilin (db (di j s)) (db (di j s + 1)%Z) (db (di (j + 1) s)%Z) (db (di (j + 1) s + 1)%Z) tr tw,
              let s' := if (s <? 2)%Z then s else 1%Z in
              bilin (tb (ti j s')) (tb (ti j s' + 1)%Z) (tb (ti (j + 1) s')%Z) (tb (ti (j + 1) s' + 1)%Z) tr tw))))
      | Fail e => Fail e
      | Bad => Bad
      end
  end.
(** plasma_1Dt.c:314-373 *)
Definition plasma_1Dt_eval_flow (d : p1t) (x t r old : R) : pres (Z * R) :=
  rd (q_rho d) [0; q_nrho d - 1]%Z
  match rho_out (q_rho d) (q_nrho d) x with
  | Some true => Good (error_raise ERR_INPUT_EVALUATION 324 EF_PLASMA_1D, old * r)
  | Some false => Good (error_raise ERR_INPUT_EVALUATION 327 EF_PLASMA_1D, old * r)
  | None =>
      let n := q_nrho d in
      let i := locate (aget (q_rho d)) n x in
      let tr := (x - aget (q_rho d) i) / (aget (q_rho d) (i + 1)%Z - aget (q_rho d) i) in
      rd (q_rho d) [i; i + 1]%Z
      match time_cell d t with
      | Good (j, tw) =>
          let v := aget (q_vtor d) in
          let p11 := (j * n + i)%Z in let p12 := ((j + 1) * n + i)%Z in
          let p21 := (j * n + i + 1)%Z in let p22 := ((j + 1) * n + i + 1)%Z in
          rd (q_vtor d) [p11; p12; p21; p22] (Good (0%Z, bilin (v p11) (v p12) (v p21) (v p22) tr tw * r))
      | Fail e => Fail e
      | Bad => Bad
      end
  end.
(** plasma_1Dt.c:165-204: the local arrays have MAX_SPECIES elements, uninitialised when the
    evaluation failed *)
Definition pick {A B} (f : A -> B) (r : pres A) : pres B := match r with Good a => Good (f a) | Fail e => Fail e | Bad => Bad end.
Definition plasma_1Dt_eval_temp (d : p1t) (x t : R) (s : Z) : pres R := pick (fun f => snd (f s)) (plasma_1Dt_eval_densandtemp d x t).
Definition plasma_1Dt_eval_dens (d : p1t) (x t : R) (s : Z) : pres R := pick (fun f => fst (f s)) (plasma_1Dt_eval_densandtemp d x t).

(** ** plasma_1DS.c *)
Record p1s := P3 { z_nsp : Z; z_temp : Z -> interp1D; z_dens : Z -> interp1D; z_vtor : interp1D }.
(** plasma_1DS.c:44-134: setup failures give [None] (that of vtor is not
    checked in the source and cannot occur alone); the tables are stored as logarithms *)
Definition plasma_1DS_init (junk : nat -> R) (nrho : nat) (rhomin rhomax : R) (nion : nat) (Te Ti ne : nat -> R) (ni : nat -> nat -> R) (vtor : nat -> R) : option p1s :=
  let su := fun f => interp1Dcomp_setup junk f nrho NATURALBC rhomin rhomax in
  let lg := fun (f : nat -> R) i => ln (f i) in
  match su (lg Te), su (lg Ti), su (lg ne), su vtor with
  | Val te, Val ti, Val e, Val v =>
      let ions := map (fun j => su (lg (ni j))) (seq 0 nion) in
      if forallb (fun r => match r with Val _ => true | _ => false end) ions then
        Some (P3 (Z.of_nat nion + 1) (fun s => if (s =? 0)%Z then te else ti)
                (fun s => if (s =? 0)%Z then e else match nth (Z.to_nat (s - 1)) ions (Val e) with Val c => c | _ => e end) v)
      else None
  | _, _, _, _ => None
  end.
(** plasma_1DS.c:236-258, 268-290; after a failed interpolation [junk] is exponentiated, but
    the error is already set *)
Definition exp_checked (l1 l2 : Z) (r : res R) : pres R :=
  match r with
  | Val v => if Rlt_dec (exp v) 0 then Fail (error_raise ERR_INPUT_EVALUATION l2 EF_PLASMA_1DS) else Good (exp v)
  | Err => Fail (error_raise ERR_INPUT_EVALUATION l1 EF_PLASMA_1DS)
  | Oob => Bad
  end.
Definition plasma_1DS_eval_temp (d : p1s) (x : R) (s : Z) : pres R := exp_checked 243 252 (interp1Dcomp_eval_f (z_temp d (b2z (0 <? s))) x).
Definition plasma_1DS_eval_dens (d : p1s) (x : R) (s : Z) : pres R := exp_checked 275 284 (interp1Dcomp_eval_f (z_dens d s) x).
(** plasma_1DS.c:302-340 *)
Definition good {A} (r : res A) : bool := match r with Val _ => true | _ => false end.
Definition oob {A} (r : res A) : bool := match r with Oob => true | _ => false end.
Definition val (r : res R) : R := match r with Val v => v | _ => 0 end.
Definition plasma_1DS_eval_densandtemp (d : p1s) (x : R) : pres (Z -> R * R) :=
  let te := interp1Dcomp_eval_f (z_temp d 0) x in
  let ti := interp1Dcomp_eval_f (z_temp d 1) x in
  let ds := fun s => interp1Dcomp_eval_f (z_dens d s) x in
  let all := te :: ds 0%Z :: ti :: map ds (tl (range (z_nsp d))) in
  if existsb oob all then Bad
  else if negb (forallb good all) then Fail (error_raise ERR_INPUT_EVALUATION 319 EF_PLASMA_1DS)
  else let out := fun s => (exp (val (ds s)), exp (val (if (s =? 0)%Z then te else ti))) in
       if existsb (fun s => if Rlt_dec (fst (out s)) 0 then true else if Rlt_dec (snd (out s)) 0 then true else false) (range (z_nsp d))
       then Fail (error_raise ERR_INPUT_EVALUATION 335 EF_PLASMA_1DS) else Good out.
(** plasma_1DS.c:350-358: the raised error is not assigned *)
Definition plasma_1DS_eval_flow (d : p1s) (x r old : R) : pres (Z * R) :=
  match interp1Dcomp_eval_f (z_vtor d) x with
  | Val v => Good (0%Z, v * r)
  | Err => Good (0%Z, old * r)
  | Oob => Bad
  end.

(** ** plasma.c *)
Inductive plasma := T1D (d : p1d) | T1Dt (d : p1t) | T1DS (d : p1s) | Tother.
(** error and the value in the output cell ([old] before the call) (plasma.c:88-117, 137-166) *)
Definition defaulted (dflt old : R) (r : pres R) : pres (Z * R) :=
  match r with Good v => Good (0%Z, v) | Fail e => Good (e, if (e =? 0)%Z then old else dflt) | Bad => Bad end.
Definition plasma_eval_temp (p : plasma) (x t : R) (s : Z) (old : R) : pres (Z * R) :=
  match p with
  | T1D d => defaulted 1e20 old (plasma_1D_eval_temp d x s)
  | T1Dt d => defaulted 1e20 old (plasma_1Dt_eval_temp d x t s)
  | T1DS d => defaulted 1e20 old (plasma_1DS_eval_temp d x s)
  | Tother => Good (0%Z, old)
  end.
Definition plasma_eval_dens (p : plasma) (x t : R) (s : Z) (old : R) : pres (Z * R) :=
  match p with
  | T1D d => defaulted 1e20 old (plasma_1D_eval_dens d x s)
  | T1Dt d => defaulted 1e20 old (plasma_1Dt_eval_dens d x t s)
  | T1DS d => defaulted 1e20 old (plasma_1DS_eval_dens d x s)
  | Tother => Good (0%Z, old)
  end.
(** plasma.c:183-224 *)
Definition both (r : pres (Z -> R * R)) : pres (Z * (Z -> R * R)) :=
  match r with Good f => Good (0%Z, f) | Fail e => Good (e, fun _ => (1e20, 1e3)) | Bad => Bad end.
Definition plasma_eval_densandtemp (p : plasma) (x t : R) : pres (Z * (Z -> R * R)) :=
  match p with
  | T1D d => both (plasma_1D_eval_densandtemp d x)
  | T1Dt d => both (plasma_1Dt_eval_densandtemp d x t)
  | T1DS d => both (plasma_1DS_eval_densandtemp d x)
  | Tother => both (Fail (error_raise ERR_UNKNOWN_INPUT 209 EF_PLASMA))
  end.
(** plasma.c:237-272 *)
Definition plasma_eval_flow (p : plasma) (x t r old : R) : pres (Z * R) :=
  let raw := match p with
    | T1D d => plasma_1D_eval_flow d x r old
    | T1Dt d => plasma_1Dt_eval_flow d x t r old
    | T1DS d => plasma_1DS_eval_flow d x r old
    | Tother => Good (error_raise ERR_UNKNOWN_INPUT 259 EF_PLASMA, old)
    end in
  pick (fun ev => (fst ev, if (fst ev =? 0)%Z then snd ev else 0)) raw.
