(** Model of the time-step bookkeeping in src/simulate/simulate_gc_adaptive.c:120-300,
    simulate_ml_adaptive.c:98-205, simulate_gc_fixed.c:105-235 and
    simulate_fo_fixed.c:92-160, and of recalculate_acceleration
    (simulate_gc_adaptive.c:385-424).

    One slot of the SIMD array; the loops treat the slots independently.  What the
    integrators, collisions, RF kicks and end conditions do is given from outside, anew
    for every pass of the loop.  Proposed steps are real numbers: an infinite proposal is
    represented by any number above the dummy value, NaN is not represented. *)
From Coq Require Import Reals ZArith List Bool.
Import ListNotations.
Local Open Scope R_scope.

Section sim.
(** everything of a marker the loops do not look at *)
Variable X : Type.
Record marker := Mk { k_time : R; k_mileage : R; k_cputime : R; k_phi : R; k_rho : R; k_id : Z; k_err : Z; k_run : bool; k_rest : X }.
Definition stop (p : marker) : marker := Mk (k_time p) (k_mileage p) (k_cputime p) (k_phi p) (k_rho p) (k_id p) (k_err p) false (k_rest p).
Definition advance (p : marker) (dt dm : R) : marker := Mk (k_time p + dt) (k_mileage p + dm) (k_cputime p) (k_phi p) (k_rho p) (k_id p) (k_err p) (k_run p) (k_rest p).
Definition add_cpu (p : marker) (c : R) : marker := Mk (k_time p) (k_mileage p) (k_cputime p + c) (k_phi p) (k_rho p) (k_id p) (k_err p) (k_run p) (k_rest p).

(** a physics module: new marker and the proposed step, negative when rejected *)
Definition physics := marker -> R -> marker * R.
Record options := Opt { o_rev : bool; o_orb : bool; o_col : bool; o_icrh : bool; o_dphi : R; o_drho : R }.
(** what is given anew in every pass *)
Record pass := Pass { w_orb : physics; w_col : physics; w_rf : physics; w_cpu : R; w_acc : R }.
Inductive event := Accepted (h : R) | Rejected | Nothing.
Definition rlt (x y : R) : bool := if Rlt_dec x y then true else false.
(** "if(p.running[i] && hout[i] < 0) { p.running[i] = 0; hnext[i] = hout[i]; }" *)
Definition check (p : marker) (hout hnext : R) : marker * R :=
  if k_run p && rlt hout 0 then (stop p, hout) else (p, hnext).
Definition smaller (hnext hout : R) : R := if rlt hout hnext then hout else hnext.
Definition dir (rev : bool) : R := if rev then -1 else 1.

(** simulate_gc_adaptive.c:122-282; the result is the marker, the next step and what
    happened (ghost output) *)
Definition gca_pass (o : options) (w : pass) (p0 : marker) (hin : R) : marker * R * event :=
  let h1 := if o_rev o then - hin else hin in
  let '(p1, hout_orb, hn1, h2) :=
    if o_orb o then
      let '(p, ho) := w_orb w p0 h1 in
      let ho := if o_rev o then - ho else ho in
      let h2 := if o_rev o then - h1 else h1 in
      let '(p, hn) := check p ho 1 in (p, ho, hn, h2)
    else (p0, 1, 1, h1) in
  let '(p2, hout_col, hn2) :=
    if o_col o then let '(p, ho) := w_col w p1 h2 in let '(p, hn) := check p ho hn1 in (p, ho, hn) else (p1, 1, hn1) in
  let '(p3, hout_rf, hn3) :=
    if o_icrh o then let '(p, ho) := w_rf w p2 h2 in let '(p, hn) := check p ho hn2 in (p, ho, hn) else (p2, 1, hn2) in
  if ((0 <? k_id p3)%Z && (k_err p3 =? 0)%Z)%bool then
    let hn4 := if rlt 0 hn3 then
                 let dphi := Rabs (k_phi p0 - k_phi p3) / o_dphi o in
                 let drho := Rabs (k_rho p0 - k_rho p3) / o_drho o in
                 if rlt 1 dphi && rlt drho dphi then - h2 / dphi else if rlt 1 drho && rlt dphi drho then - h2 / drho else hn3
               else hn3 in
    let p4 := if rlt hn4 0 then p0 else p3 in
    if k_run p4 then
      if rlt hn4 0 then (add_cpu p4 (w_cpu w), - hn4, Rejected)
      else
        let dm := h2 * w_acc w in
        let hn5 := smaller (smaller (smaller hn4 hout_orb) hout_col) hout_rf in
        let hn6 := if Req_EM_T hn5 1 then h2 else hn5 in
        (add_cpu (advance p4 (dir (o_rev o) * h2 * w_acc w) dm) (w_cpu w), hn6, Accepted dm)
    else (p4, h2, Nothing)
  else (p3, h2, Nothing).

(** simulate_ml_adaptive.c:98-193; steps are lengths, the mileage is divided by the speed
    of light [c], the time is not advanced *)
Definition mla_pass (c : R) (o : options) (w : pass) (p0 : marker) (hin : R) : marker * R * event :=
  let '(p1, hout, hn1) :=
    if o_orb o then
      let h1 := if o_rev o then - hin else hin in
      let '(p, ho) := w_orb w p0 h1 in
      let ho := if o_rev o then - ho else ho in
      let '(p, hn) := check p ho 100 in (p, ho, hn)
    else (p0, 100, 100) in
  if (k_err p1 =? 0)%Z then
    let hn4 := if rlt 0 hn1 then
                 let dphi := Rabs (k_phi p0 - k_phi p1) / o_dphi o in
                 let drho := Rabs (k_rho p0 - k_rho p1) / o_drho o in
                 if rlt 1 dphi && rlt drho dphi then - hin / dphi else if rlt 1 drho && rlt dphi drho then - hin / drho else hn1
               else hn1 in
    let p4 := if rlt hn4 0 then p0 else p1 in
    if k_run p4 then
      if rlt hn4 0 then (add_cpu p4 (w_cpu w), - hn4, Rejected)
      else
        let hn5 := if rlt hout hn4 then hout else if Req_EM_T hn4 100 then hin else hn4 in
        (add_cpu (advance p4 0 (hin / c)) (w_cpu w), hn5, Accepted (hin / c))
    else (p4, hin, Nothing)
  else (p1, hin, Nothing).

(** simulate_fo_fixed.c:98-160 (atomic reactions take the place of [w_rf]; proposed steps
    are not used); [o_icrh] stands for enable_atomic *)
Definition fof_pass (o : options) (w : pass) (p0 : marker) (hin : R) : marker * event :=
  let h1 := if o_rev o then - hin else hin in
  let p1 := if o_orb o then fst (w_orb w p0 h1) else p0 in
  let h2 := if o_rev o then - h1 else h1 in
  let p2 := if o_col o then fst (w_col w p1 h2) else p1 in
  let p3 := if o_icrh o then fst (w_rf w p2 h2) else p2 in
  if k_run p3 then (add_cpu (advance p3 (dir (o_rev o) * h2) h2) (w_cpu w), Accepted h2) else (p3, Nothing).

(** simulate_gc_fixed.c:113-217; [hin, hdef, recom] are hin, hin_default, hnext_recom;
    the event carries what is added to the mileage *)
Definition gcf_pass (o : options) (w : pass) (p0 : marker) (hs : R * R * R) : marker * (R * R * R) * event :=
  let '(hin, hdef, recom) := hs in
  let h1 := if o_rev o then - hin else hin in
  let p1 := if o_orb o then fst (w_orb w p0 h1) else p0 in
  let h2 := if o_rev o then - h1 else h1 in
  let p2 := if o_col o then fst (w_col w p1 h2) else p1 in
  let '(p3, h3, recom3) :=
    if o_icrh o then
      let '(p, ho) := w_rf w p2 h2 in
      if k_run p && rlt ho 0 then (stop p, h2, ho) else if k_run p then (p, hdef, recom) else (p, h2, recom)
    else (p2, h2, recom) in
  let '(p4, h4) := if rlt recom3 0 then (p0, - recom3) else (p3, h3) in
  if k_run p4 then
    if rlt recom3 0 then (p4, (h4, hdef, 1), Rejected)
    else (add_cpu (advance p4 (dir (o_rev o) * h4) h4) (w_cpu w), (h4, hdef, recom3), Accepted h4)
  else (p4, (h4, hdef, recom3), Nothing).
(** simulate_gc_fixed.c:228-236: a new marker in the slot *)
Definition gcf_refill (inidt : R) (hs : R * R * R) : R * R * R := let '(_, hdef, recom) := hs in (inidt, hdef, recom).
End sim.
Arguments Mk {X}. Arguments k_time {X}. Arguments k_mileage {X}. Arguments k_cputime {X}. Arguments k_phi {X}. Arguments k_rho {X}. Arguments k_id {X}.
Arguments k_err {X}. Arguments k_run {X}. Arguments k_rest {X}. Arguments Pass {X}. Arguments w_orb {X}. Arguments w_col {X}. Arguments w_rf {X}. Arguments w_cpu {X}. Arguments w_acc {X}.
Arguments gca_pass {X}. Arguments mla_pass {X}. Arguments fof_pass {X}. Arguments gcf_pass {X}. Arguments check {X}. Arguments stop {X}. Arguments advance {X}. Arguments add_cpu {X}.

(** ** Acceleration factor (simulate_gc_adaptive.c:385-424) *)
Record accel := Acc { a_acc : R; a_orbit : R; a_once : bool; a_twice : bool; a_first : bool }.
(** [crossed]: the outer midplane was crossed; [ppar] the parallel momentum; [safety] the
    factor enable_ada / 1000; [nu] the collision frequency *)
Definition same_dir (a : accel) (ppar : R) : bool := rlt 0 (((if a_first a then 1 else 0) - 0.5) * ppar).
Definition new_acc (safety nu : R) (a : accel) : R := Rmax 1 (safety / (a_orbit a * nu)).
Definition recalc (safety nu : R) (crossed : bool) (ppar : R) (a : accel) : accel :=
  if crossed && a_twice a then
    Acc (if same_dir a ppar then new_acc safety nu a else 1) 0 true false (rlt 0 ppar)
  else if crossed && a_once a then
    if same_dir a ppar then Acc (new_acc safety nu a) 0 true false (rlt 0 ppar)
    else Acc (a_acc a) (a_orbit a) (a_once a) true (a_first a)
  else if crossed then Acc (a_acc a) 0 true (a_twice a) (rlt 0 ppar)
  else a.
(** simulate_gc_adaptive.c:244-245: an accepted step of length h *)
Definition orbit_add (h : R) (a : accel) : accel :=
  Acc (a_acc a) (if Rle_dec 0 (a_orbit a) then a_orbit a + h * a_acc a else a_orbit a) (a_once a) (a_twice a) (a_first a).
(** simulate_gc_adaptive.c:82-86, 283-287: crossed_twice and first_ppar are not set *)
Definition acc_init (twice first : bool) : accel := Acc 1 (-1) false twice first.
