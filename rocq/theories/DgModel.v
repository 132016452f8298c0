(** Model of the dispatch to the diagnostics, src/diag.c:37-93, 180-277.  The markers of one call are seen by the
    orbit, distribution and transport diagnostics through their own records.  Allocations succeed. *)
From Coq Require Import Reals ZArith List Bool.
From Verif Require Import Vec OrbModel DistModel TcModel.
Import ListNotations.

(** what is collected, and how *)
Record setup := Setup { orb_on : bool; orb_cfg : cfg; dist_on : dtype -> bool; dist_ax : dtype -> list DistModel.axis; tc_on : bool; tc_par : par; tc_fuel : nat }.
(** a slot of the marker arrays: end and start of the step *)
Record fo_slot := SF { sf : fo * fo; sf_junk : dtype -> Z * R; sf_orb : mk * mk; sf_tc : ev }.
Record gc_slot := SG { sg : gc * gc; sg_orb : mk * mk; sg_tc : ev }.
Record ml_slot := SM { sm_orb : mk * mk; sm_tc : ev }.
Record dg := DG { d_orb : orb; d_hist : dtype -> hist; d_tc : option tc }.

(** diag.c:37-93; the histograms and orbit arrays are zeroed by their init functions *)
Definition diag_init : Z * dg := (0%Z, DG orb_init (fun _ _ => 0%R) (Some tc_init)).

Section Update.
Variables (E0 c0 : R) (psi : R -> R -> R -> R -> R) (mom : gc -> R * R * R) (u : setup).
Definition on_orb (kd : kind) (l : list (mk * mk)) (s : dg) : dg :=
  if orb_on u then DG (OrbModel.update (orb_cfg u) kd (d_orb s) l) (d_hist s) (d_tc s) else s.
Definition on_tc (l : list ev) (s : dg) : dg :=
  if tc_on u then DG (d_orb s) (d_hist s) (match d_tc s with None => None | Some c => TcModel.run (tc_fuel u) (tc_par u) c l end) else s.
Definition on_dist (t : dtype) (f : list DistModel.axis -> hist -> hist) (s : dg) : dg :=
  if dist_on u t then DG (d_orb s) (put (d_hist s) t (f (dist_ax u t) (d_hist s t))) (d_tc s) else s.
(** diag.c:180-203 *)
Definition diag_update_fo (l : list fo_slot) (s : dg) : dg :=
  let up t := on_dist t (fun ax h => update_fo E0 c0 psi t ax h (map (fun x => (sf x, sf_junk x t)) l)) in
  let s := on_orb FO (map sf_orb l) s in
  let s := up D5 s in
  let s := up D6 s in
  let s := up DR5 s in
  let s := up DR6 s in
  let s := up DCOM s in
  on_tc (map sf_tc l) s.
(** diag.c:215-244 *)
Definition diag_update_gc (l : list gc_slot) (s : dg) : dg :=
  let up t := on_dist t (fun ax h => update_gc E0 c0 psi mom t ax h (map sg l)) in
  let s := on_orb GC (map sg_orb l) s in
  let s := up D5 s in
  let s := up D6 s in
  let s := up DR5 s in
  let s := up DR6 s in
  let s := up DCOM s in
  on_tc (map sg_tc l) s.
(** diag.c:257-266 *)
Definition diag_update_ml (l : list ml_slot) (s : dg) : dg := on_tc (map sm_tc l) (on_orb ML (map sm_orb l) s).

(** the calls of a simulation; a hybrid one makes calls of two kinds *)
Inductive call := CFo (l : list fo_slot) | CGc (l : list gc_slot) | CMl (l : list ml_slot).
Definition diag_call (s : dg) (c : call) : dg :=
  match c with CFo l => diag_update_fo l s | CGc l => diag_update_gc l s | CMl l => diag_update_ml l s end.
Definition diag_run (cs : list call) (s : dg) : dg := fold_left diag_call cs s.
End Update.
