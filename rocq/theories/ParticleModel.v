(** Model of the marker format conversions.
    Source: src/particle.c:550-1719, struct fields src/particle.h:40-330.

    A marker state is a value for every field; a simulation bundle holds, for
    every field, an array indexed by slot.  One list of field names serves all
    formats; fields a C struct lacks are never touched.  Real numbers are
    exact.  Field evaluation and guiding-center transformation are arbitrary
    functions; an evaluation returns an error code and the values left in the
    output array (the C code stores these also after an error). *)
From Coq Require Import Reals ZArith List Bool.
Import ListNotations.
Local Open Scope R_scope.

Inductive rf : Set :=
| r | phi | z | ppar | mu | zeta | rprt | phiprt | zprt | p_r | p_phi | p_z
| mass | charge | weight | time | mileage | cputime | rho | theta | pitch
| B_r | B_phi | B_z | B_r_dr | B_phi_dr | B_z_dr | B_r_dphi | B_phi_dphi | B_z_dphi
| B_r_dz | B_phi_dz | B_z_dz.
Inductive zf : Set := anum | znum | bounces | id | endcond | walltile | running | err | index.
Scheme Equality for rf.
Scheme Equality for zf.

Record marker := mkm { re : rf -> R; ze : zf -> Z }.
Record bundle := mkb { bre : rf -> nat -> R; bze : zf -> nat -> Z }.

Definition upr {A} (f : rf -> A) (k : rf) (v : A) : rf -> A := fun x => if rf_beq x k then v else f x.
Definition upz {A} (f : zf -> A) (k : zf) (v : A) : zf -> A := fun x => if zf_beq x k then v else f x.
Definition upn {A} (f : nat -> A) (k : nat) (v : A) : nat -> A := fun x => if Nat.eqb x k then v else f x.

(** [p->f = v] and [p->f[j] = v] *)
Definition setr (p : marker) (f : rf) (v : R) : marker := mkm (upr (re p) f v) (ze p).
Definition setz (p : marker) (f : zf) (v : Z) : marker := mkm (re p) (upz (ze p) f v).
Definition bsetr (b : bundle) (j : nat) (f : rf) (v : R) : bundle :=
  mkb (upr (bre b) f (upn (bre b f) j v)) (bze b).
Definition bsetz (b : bundle) (j : nat) (f : zf) (v : Z) : bundle :=
  mkb (bre b) (upz (bze b) f (upn (bze b f) j v)).

(** Runs of assignments [b->d[j] = p->s] and [p->d = b->s[j]]. *)
Definition loadr (p : marker) (j : nat) (l : list (rf * rf)) (b : bundle) : bundle :=
  fold_left (fun b ds => bsetr b j (fst ds) (re p (snd ds))) l b.
Definition loadz (p : marker) (j : nat) (l : list (zf * zf)) (b : bundle) : bundle :=
  fold_left (fun b ds => bsetz b j (fst ds) (ze p (snd ds))) l b.
Definition storer (b : bundle) (j : nat) (l : list (rf * rf)) (p : marker) : marker :=
  fold_left (fun p ds => setr p (fst ds) (bre b (snd ds) j)) l p.
Definition storez (b : bundle) (j : nat) (l : list (zf * zf)) (p : marker) : marker :=
  fold_left (fun p ds => setz p (fst ds) (bze b (snd ds) j)) l p.
Definition same {A} (l : list A) : list (A * A) := map (fun f => (f, f)) l.

(** B_dB[0..11] in the order of the C array. *)
Definition bfields : list rf :=
  [B_r; B_r_dr; B_r_dphi; B_r_dz; B_phi; B_phi_dr; B_phi_dphi; B_phi_dz; B_z; B_z_dr; B_z_dphi; B_z_dz].
Definition bput (b : bundle) (j : nat) (v : rf -> R) : bundle :=
  fold_left (fun b f => bsetr b j f (v f)) bfields b.
Definition mput (p : marker) (v : rf -> R) : marker := fold_left (fun p f => setr p f (v f)) bfields p.

Section Conv.
(** B_field_eval_B_dB(r,phi,z,t), B_field_eval_psi, B_field_eval_rho,
    B_field_get_axis_rz(phi) *)
Context (eval_B : R -> R -> R -> R -> Z * (rf -> R)).
Context (eval_psi : R -> R -> R -> R -> Z * R).
Context (eval_rho : R -> Z * R).
Context (axis_rz : R -> Z * (R * R)).
(** gctransform_particle2guidingcenter(mass,charge,B_dB,r,phi,z,pr,pphi,pz)
    -> (r,phi,z,ppar,mu,zeta) *)
Context (p2g : R -> R -> (rf -> R) -> R -> R -> R -> R -> R -> R -> R * R * R * R * R * R).
(** gctransform_guidingcenter2particle -> (rprt,phiprt,zprt,pparprt,muprt,zetaprt) *)
Context (g2p : R -> R -> (rf -> R) -> R -> R -> R -> R -> R -> R -> R * R * R * R * R * R).
(** gctransform_pparmuzeta2prpphipz(mass,charge,B_dB,phi,ppar,mu,zeta) *)
Context (ppm : R -> R -> (rf -> R) -> R -> R -> R -> R -> R * R * R).
(** error_raise(ERR_MARKER_UNPHYSICAL,..) and CONST_C, atan2 *)
Context (unphys : Z) (cc : R) (atan2 : R -> R -> R).

(** particle.c:659-728 *)
Definition state_to_fo (p : marker) (i : Z) (b : bundle) (j : nat) : Z * bundle :=
  let e0 := ze p err in
  if negb (Z.eqb e0 0) then (e0, b) else
  let b := loadr p j [(r, rprt); (phi, phiprt); (z, zprt)] b in
  let b := loadr p j (same [p_r; p_phi; p_z; mass; charge]) b in
  let b := loadz p j (same [znum; anum]) b in
  let b := bsetz b j bounces 0 in
  let b := loadr p j (same [weight; time; theta]) b in
  let b := loadz p j (same [id; endcond; walltile]) b in
  let b := loadr p j (same [mileage]) b in
  let (e1, B) := eval_B (re p rprt) (re p phiprt) (re p zprt) (re p time) in
  if negb (Z.eqb e1 0) then (e1, b) else
  let (e2, psi) := eval_psi (re p rprt) (re p phiprt) (re p zprt) (re p time) in
  if negb (Z.eqb e2 0) then (e2, b) else
  let (e3, rh) := eval_rho psi in
  if negb (Z.eqb e3 0) then (e3, b) else
  let b := bsetr b j rho rh in
  let b := bput b j B in
  let b := bsetz b j running 1 in
  let b := if Z.eqb (ze p endcond) 0 then b else bsetz b j running 0 in
  let b := loadr p j (same [cputime]) b in
  let b := bsetz b j index i in
  (0%Z, bsetz b j err 0).

(** particle.c:744-844 *)
Definition fo_to_state (b : bundle) (j : nat) (p : marker) : marker :=
  let p := storer b j [(rprt, r); (phiprt, phi); (zprt, z)] p in
  let p := storer b j (same [p_r; p_phi; p_z; mass; charge]) p in
  let p := storez b j (same [znum; anum]) p in
  let p := storer b j (same [weight; time; theta]) p in
  let p := storez b j (same [id; endcond; walltile]) p in
  let p := storer b j (same [cputime; mileage]) p in
  let B0 := fun f => bre b f j in
  let '(gr, gphi, gz, gpp, gmu, gzeta) :=
    p2g (re p mass) (re p charge) B0 (re p rprt) (re p phiprt) (re p zprt)
        (re p p_r) (re p p_phi) (re p p_z) in
  let p := setr (setr (setr (setr (setr p r gr) phi gphi) z gz) mu gmu) zeta gzeta in
  let e := if Rle_dec gr 0 then unphys else if Rlt_dec gmu 0 then unphys else 0%Z in
  (* field evaluations at the guiding-center position *)
  let '(e, B) := if Z.eqb e 0 then eval_B gr gphi gz (re p time) else (e, B0) in
  let '(e, psi) := if Z.eqb e 0 then eval_psi gr gphi gz (re p time) else (e, 0) in
  let '(e, rh) := if Z.eqb e 0 then eval_rho psi else (e, bre b rho j) in
  let p := if Z.eqb e 0 then setr p ppar gpp else p in
  let e := if Z.eqb e 0 then (if Rle_dec cc gpp then unphys else 0%Z) else e in
  let p := mput (setr p rho rh) B in
  setz p err (if Z.eqb (bze b err j) 0 then e else bze b err j).

(** particle.c:871-920 *)
Definition state_to_gc (p : marker) (i : Z) (b : bundle) (j : nat) : Z * bundle :=
  let e0 := ze p err in
  if negb (Z.eqb e0 0) then (e0, b) else
  let b := loadr p j (same [r; phi; z; ppar; mu; zeta; mass; charge; time]) b in
  let b := bsetz b j bounces 0 in
  let b := loadr p j (same [weight; rho; theta]) b in
  let b := loadz p j (same [id; endcond; walltile]) b in
  let b := loadr p j (same [mileage]) b in
  let b := loadr p j (same bfields) b in
  let b := bsetz b j running 1 in
  let b := if Z.eqb (ze p endcond) 0 then b else bsetz b j running 0 in
  let b := loadr p j (same [cputime]) b in
  let b := bsetz b j index i in
  (0%Z, bsetz b j err 0).

(** particle.c:936-1020; the error of the field evaluation at 997 is ignored. *)
Definition gc_to_state (b : bundle) (j : nat) (p : marker) : marker :=
  let p := storer b j (same [r; phi; z; ppar; mu; zeta; mass; charge; time; weight]) p in
  let p := storez b j (same [id]) p in
  let p := storer b j (same [cputime; rho; theta]) p in
  let p := storez b j (same [endcond; walltile]) p in
  let p := storer b j (same [mileage]) p in
  let p := storer b j (same bfields) p in
  let '(xr, xphi, xz, pp, m, ze') :=
    g2p (re p mass) (re p charge) (re p) (re p r) (re p phi) (re p z)
        (re p ppar) (re p mu) (re p zeta) in
  let p := setr (setr (setr p rprt xr) phiprt xphi) zprt xz in
  let B := snd (eval_B xr xphi xz (re p time)) in
  let '(pr, pphi, pz) := ppm (re p mass) (re p charge) B xphi pp m ze' in
  let e := if Rle_dec xr 0 then unphys else 0%Z in
  let p := if Z.eqb e 0 then setr (setr (setr p p_r pr) p_phi pphi) p_z pz else p in
  setz p err (if Z.eqb (bze b err j) 0 then e else bze b err j).

(** particle.c:1052-1097 *)
Definition state_to_ml (p : marker) (i : Z) (b : bundle) (j : nat) : Z * bundle :=
  let e0 := ze p err in
  if negb (Z.eqb e0 0) then (e0, b) else
  let b := loadr p j (same [r; phi; z]) b in
  let b := bsetr b j pitch (if Rle_dec 0 (re p ppar) then 1 else -1) in
  let b := loadr p j (same [time; weight]) b in
  let b := loadz p j (same [id]) b in
  let b := loadr p j (same [cputime; rho; theta]) b in
  let b := loadz p j (same [endcond; walltile]) b in
  let b := loadr p j (same [mileage]) b in
  let b := loadr p j (same bfields) b in
  let b := bsetz b j running 1 in
  let b := if Z.eqb (ze p endcond) 0 then b else bsetz b j running 0 in
  let b := bsetz b j index i in
  (0%Z, bsetz b j err 0).

(** particle.c:1117-1172; note the last assignment [p->err = err]. *)
Definition ml_to_state (b : bundle) (j : nat) (p : marker) : marker :=
  let e := 0%Z in
  let p := storer b j [(rprt, r); (phiprt, phi); (zprt, z)] p in
  let p := setr (setr (setr p p_r 0) p_phi 0) p_z 0 in
  let p := storer b j [(r, r); (phi, phi); (z, z); (ppar, pitch)] p in
  let p := setr (setr (setr (setr p mu 0) zeta 0) mass 0) charge 0 in
  let p := storer b j (same [time; weight]) p in
  let p := storez b j (same [id]) p in
  let p := storer b j (same [cputime; rho; theta]) p in
  let p := storez b j (same [endcond; walltile]) p in
  let p := storer b j (same [mileage]) p in
  let p := storez b j (same [err]) p in
  let p := storer b j (same bfields) p in
  let p := setz p err (if Z.eqb (bze b err j) 0 then e else bze b err j) in
  setz p err e.

(** particle.h:93-142: input markers use the same field names; [re _ pitch],
    [re _ mu] hold pitch, and [energy] is given separately. *)
Definition raise (c : bool) (e : Z) : Z := if Z.eqb e 0 then (if c then unphys else 0%Z) else e.
Definition leb (a b : R) : bool := if Rle_dec a b then true else false.

(** particle.c:1449-1529.  The axis error of 1454 is overwritten at 1477;
    [axis_rz] still provides the values used for theta. *)
Definition input_p (m ps : marker) : Z * marker :=
  let '(_, (ar, az)) := axis_rz (re m phi) in
  let ps := setr (setr (setr ps rprt (re m r)) phiprt (re m phi)) zprt (re m z) in
  let ps := fold_left (fun q f => setr q f (re m f)) [p_r; p_phi; p_z; mass; charge] ps in
  let ps := fold_left (fun q f => setz q f (ze m f)) [anum; znum] ps in
  let ps := fold_left (fun q f => setr q f (re m f)) [weight; time] ps in
  let ps := setr ps theta (atan2 (re ps zprt - az) (re ps rprt - ar)) in
  let ps := setz ps id (ze m id) in
  let ps := setr ps mileage 0 in
  let ps := setz (setz ps endcond 0) walltile 0 in
  let ps := setr ps cputime 0 in
  let '(e, B) := eval_B (re ps rprt) (re ps phiprt) (re ps zprt) (re ps time) in
  if negb (Z.eqb e 0) then (e, ps) else
  let '(gr, gphi, gz, gpp, gmu, gzeta) :=
    p2g (re ps mass) (re ps charge) B (re ps rprt) (re ps phiprt) (re ps zprt)
        (re m p_r) (re m p_phi) (re m p_z) in
  let e := raise (if Rlt_dec gmu 0 then true else false) (raise (leb gr 0) 0) in
  if negb (Z.eqb e 0) then (e, ps) else
  let '(e, B) := eval_B gr gphi gz (re ps time) in
  if negb (Z.eqb e 0) then (e, ps) else
  let '(e, psi) := eval_psi gr gphi gz (re ps time) in
  if negb (Z.eqb e 0) then (e, ps) else
  let '(e, rh) := eval_rho psi in
  if negb (Z.eqb e 0) then (e, ps) else
  let ps := setr (setr (setr (setr (setr (setr ps r gr) phi gphi) z gz) ppar gpp) mu gmu) zeta gzeta in
  let ps := mput (setr ps rho rh) B in
  (0%Z, setz ps err 0).

(** particle.c:1656-1719; the pitch is stored as a truth value (line 1698). *)
Definition input_ml (m ps : marker) : Z * marker :=
  let '(e, B) := eval_B (re m r) (re m phi) (re m z) (re m time) in
  if negb (Z.eqb e 0) then (e, ps) else
  let '(e, psi) := eval_psi (re m r) (re m phi) (re m z) (re m time) in
  if negb (Z.eqb e 0) then (e, ps) else
  let '(e, rh) := eval_rho psi in
  if negb (Z.eqb e 0) then (e, ps) else
  let '(e, (ar, az)) := axis_rz (re m phi) in
  if negb (Z.eqb e 0) then (e, ps) else
  let ps := setr (setr (setr ps rprt (re m r)) phiprt (re m phi)) zprt (re m z) in
  let ps := fold_left (fun q f => setr q f 0) [p_r; p_phi; p_z; mass; charge] ps in
  let ps := setz (setz ps anum 0) znum 0 in
  let ps := setr (setr ps weight (re m weight)) time (re m time) in
  let ps := setz ps id (ze m id) in
  let ps := setr ps theta (atan2 (re m z - az) (re m r - ar)) in
  let ps := setz (setz ps endcond 0) walltile 0 in
  let ps := setr (setr ps cputime 0) mileage 0 in
  let ps := setr (setr (setr ps r (re m r)) phi (re m phi)) z (re m z) in
  let ps := setr (setr (setr ps ppar (if Rle_dec 0 (re m pitch) then 1 else 0)) mu 0) zeta 0 in
  let ps := mput (setr ps rho rh) B in
  (0%Z, setz ps err 0).

(** particle.c:1540-1645; [conv B] stands for the (ppar, mu) computed at
    1574-1585 from energy, pitch and mass. *)
Definition input_gc (conv : (rf -> R) -> R * R) (m ps : marker) : Z * marker :=
  let '(e, B) := eval_B (re m r) (re m phi) (re m z) (re m time) in
  if negb (Z.eqb e 0) then (e, ps) else
  let '(e, psi) := eval_psi (re m r) (re m phi) (re m z) (re m time) in
  if negb (Z.eqb e 0) then (e, ps) else
  let '(e, rh) := eval_rho psi in
  if negb (Z.eqb e 0) then (e, ps) else
  let ps := mput (setr ps rho rh) B in
  let '(gpp, gmu) := conv B in
  let e := raise (if Rlt_dec gmu 0 then true else false) 0 in
  if negb (Z.eqb e 0) then (e, ps) else
  let '(e, (ar, az)) := axis_rz (re m phi) in
  if negb (Z.eqb e 0) then (e, ps) else
  let ps := setr (setr (setr (setr (setr ps r (re m r)) phi (re m phi)) z (re m z)) mu gmu) ppar gpp in
  let ps := fold_left (fun q f => setr q f (re m f)) [zeta; mass; charge] ps in
  let ps := fold_left (fun q f => setz q f (ze m f)) [anum; znum] ps in
  let ps := fold_left (fun q f => setr q f (re m f)) [weight; time] ps in
  let ps := setr ps theta (atan2 (re ps z - az) (re ps r - ar)) in
  let ps := setz ps id (ze m id) in
  let ps := setr ps mileage 0 in
  let ps := setz (setz ps endcond 0) walltile 0 in
  let ps := setr ps cputime 0 in
  let '(xr, xphi, xz, pp, mm, zz) :=
    g2p (re ps mass) (re ps charge) B (re ps r) (re ps phi) (re ps z)
        (re ps ppar) (re ps mu) (re ps zeta) in
  let B2 := snd (eval_B xr xphi xz (re ps time)) in
  let '(pr, pphi, pz) := ppm (re ps mass) (re ps charge) B2 xphi pp mm zz in
  let e := raise (leb xr 0) 0 in
  if negb (Z.eqb e 0) then (e, ps) else
  let ps := setr (setr (setr ps rprt xr) phiprt xphi) zprt xz in
  let ps := setr (setr (setr ps p_r pr) p_phi pphi) p_z pz in
  (0%Z, setz ps err 0).

(** particle.c:550-631.  [energy] of a guiding-center input. *)
Inductive itype := TP | TGC | TML.
Definition input_to_state (conv : (rf -> R) -> R * R) (ty : itype) (energy : R) (m ps : marker) : marker :=
  let '(e, ps') :=
    match ty with
    | TP =>
        let e := raise (leb (re m r) 0) 0 in
        let e := raise (leb (re m mass) 0) e in
        let e := raise (leb (re m weight) 0) e in
        let e := raise (Z.leb (ze m id) 0) e in
        if Z.eqb e 0 then input_p m ps else (e, ps)
    | TGC =>
        let e := raise (leb (re m r) 0) 0 in
        let e := raise (if Rlt_dec 1 (Rabs (re m pitch)) then true else false) e in
        let e := raise (leb energy 0) e in
        let e := raise (leb (re m mass) 0) e in
        let e := raise (leb (re m weight) 0) e in
        let e := raise (Z.leb (ze m id) 0) e in
        if Z.eqb e 0 then input_gc conv m ps else (e, ps)
    | TML =>
        let e := raise (leb (re m r) 0) 0 in
        let e := raise (leb (re m weight) 0) e in
        let e := raise (Z.leb (ze m id) 0) e in
        if Z.eqb e 0 then input_ml m ps else (e, ps)
    end in
  if Z.eqb e 0 then ps' else setz (setz (setz ps' id (ze m id)) endcond 0) err e.
End Conv.

(** particle.c:1302-1345, 1355-1394, 1404-1438 *)
Definition copy_r (p1 : bundle) (i : nat) (j : nat) (l : list rf) (p2 : bundle) : bundle :=
  fold_left (fun b f => bsetr b j f (bre p1 f i)) l p2.
Definition copy_z (p1 : bundle) (i : nat) (j : nat) (l : list zf) (p2 : bundle) : bundle :=
  fold_left (fun b f => bsetz b j f (bze p1 f i)) l p2.
Definition copy_B : list rf := [B_r; B_phi; B_z; B_r_dr; B_r_dphi; B_r_dz; B_phi_dr; B_phi_dphi; B_phi_dz;
  B_z_dr; B_z_dphi; B_z_dz].
Definition copy_fo (p1 : bundle) (i : nat) (p2 : bundle) (j : nat) : bundle :=
  let b := copy_r p1 i j [r; phi; z; p_r; p_phi; p_z; time; mileage; cputime; rho; weight; cputime; rho; theta;
                          mass; charge] p2 in
  let b := copy_z p1 i j [znum; anum; id; bounces; running; endcond; walltile] b in
  copy_r p1 i j copy_B b.
Definition copy_gc (p1 : bundle) (i : nat) (p2 : bundle) (j : nat) : bundle :=
  let b := copy_r p1 i j [r; phi; z; ppar; mu; zeta; time; mileage; weight; cputime; rho; theta; mass; charge] p2 in
  let b := copy_z p1 i j [id; bounces; running; endcond; walltile] b in
  copy_r p1 i j copy_B b.
Definition copy_ml (p1 : bundle) (i : nat) (p2 : bundle) (j : nat) : bundle :=
  let b := copy_r p1 i j [r; phi; z; pitch; time; mileage; cputime; rho; weight; theta] p2 in
  let b := copy_z p1 i j [id; running; endcond; walltile] b in
  copy_r p1 i j copy_B b.
