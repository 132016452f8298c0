(** Model of the distribution diagnostics: src/diag/dist_5D.c, dist_6D.c,
    dist_rho5D.c, dist_rho6D.c, dist_com.c, src/diag/hist.c and the summation
    in src/diag.c.  A histogram is a function of the position.  Conversions of
    floor() results to int and size_t are exact (no overflow). *)
From Coq Require Import Reals ZArith List Bool.
From Verif Require Import MathModel Vec.
Import ListNotations.
Local Open Scope R_scope.

Record axis := AX { amin : R; amax : R; an : Z }.
(** e.g. dist_5D.c:202-203 *)
Definition bin (a : axis) (x : R) : Z := Int_part ((x - amin a) / ((amax a - amin a) / IZR (an a))).

Inductive dtype := D5 | D6 | DR5 | DR6 | DCOM.

Local Open Scope Z_scope.
(** allocated length: dist_5D.c:43,50; dist_6D.c:41,49; dist_rho5D.c:43,50;
    dist_rho6D.c:45,53; dist_com.c:33,36.  The axes are in index order. *)
Definition total (t : dtype) (ax : list axis) : Z :=
  match t, map an ax with
  | D5, [n_r; n_phi; n_z; n_ppara; n_pperp; n_time; n_q] =>
      n_q * n_time * n_pperp * n_ppara * n_z * n_phi * n_r
  | D6, [n_r; n_phi; n_z; n_pr; n_pphi; n_pz; n_time; n_q] =>
      n_q * n_time * n_pz * n_pphi * n_pr * n_z * n_phi * n_r
  | DR5, [n_rho; n_theta; n_phi; n_ppara; n_pperp; n_time; n_q] =>
      n_q * n_time * n_pperp * n_ppara * n_phi * n_theta * n_rho
  | DR6, [n_rho; n_theta; n_phi; n_pr; n_pphi; n_pz; n_time; n_q] =>
      n_q * n_time * n_pz * n_pphi * n_pr * n_phi * n_theta * n_rho
  | DCOM, [n_mu; n_Ekin; n_Ptor] => n_Ptor * n_Ekin * n_mu
  | _, _ => 0
  end.
(** dist_*_index with the steps set by dist_*_init: dist_5D.c:17-28,37-48;
    dist_6D.c:17-47; dist_rho5D.c:17-48; dist_rho6D.c:17-51; dist_com.c:17-34 *)
Definition index (t : dtype) (ax : list axis) (d : list Z) : Z :=
  match t, map an ax, d with
  | D5, [n_r; n_phi; n_z; n_ppara; n_pperp; n_time; n_q], [i_r; i_phi; i_z; i_ppara; i_pperp; i_time; i_q] =>
      let step_6 := n_q * n_time * n_pperp * n_ppara * n_z * n_phi in
      let step_5 := n_q * n_time * n_pperp * n_ppara * n_z in
      let step_4 := n_q * n_time * n_pperp * n_ppara in
      let step_3 := n_q * n_time * n_pperp in
      let step_2 := n_q * n_time in
      let step_1 := n_q in
      i_r * step_6 + i_phi * step_5 + i_z * step_4 + i_ppara * step_3 + i_pperp * step_2 + i_time * step_1 + i_q
  | D6, [n_r; n_phi; n_z; n_pr; n_pphi; n_pz; n_time; n_q], [i_r; i_phi; i_z; i_pr; i_pphi; i_pz; i_time; i_q] =>
      let step_7 := n_q * n_time * n_pz * n_pphi * n_pr * n_z * n_phi in
      let step_6 := n_q * n_time * n_pz * n_pphi * n_pr * n_z in
      let step_5 := n_q * n_time * n_pz * n_pphi * n_pr in
      let step_4 := n_q * n_time * n_pz * n_pphi in
      let step_3 := n_q * n_time * n_pz in
      let step_2 := n_q * n_time in
      let step_1 := n_q in
      i_r * step_7 + i_phi * step_6 + i_z * step_5 + i_pr * step_4 + i_pphi * step_3 + i_pz * step_2 + i_time * step_1 + i_q
  | DR5, [n_rho; n_theta; n_phi; n_ppara; n_pperp; n_time; n_q], [i_rho; i_theta; i_phi; i_ppara; i_pperp; i_time; i_q] =>
      let step_6 := n_q * n_time * n_pperp * n_ppara * n_phi * n_theta in
      let step_5 := n_q * n_time * n_pperp * n_ppara * n_phi in
      let step_4 := n_q * n_time * n_pperp * n_ppara in
      let step_3 := n_q * n_time * n_pperp in
      let step_2 := n_q * n_time in
      let step_1 := n_q in
      i_rho * step_6 + i_theta * step_5 + i_phi * step_4 + i_ppara * step_3 + i_pperp * step_2 + i_time * step_1 + i_q
  | DR6, [n_rho; n_theta; n_phi; n_pr; n_pphi; n_pz; n_time; n_q], [i_rho; i_theta; i_phi; i_pr; i_pphi; i_pz; i_time; i_q] =>
      let step_7 := n_q * n_time * n_pz * n_pphi * n_pr * n_phi * n_theta in
      let step_6 := n_q * n_time * n_pz * n_pphi * n_pr * n_phi in
      let step_5 := n_q * n_time * n_pz * n_pphi * n_pr in
      let step_4 := n_q * n_time * n_pz * n_pphi in
      let step_3 := n_q * n_time * n_pz in
      let step_2 := n_q * n_time in
      let step_1 := n_q in
      i_rho * step_7 + i_theta * step_6 + i_phi * step_5 + i_pr * step_4 + i_pphi * step_3 + i_pz * step_2 + i_time * step_1 + i_q
  | DCOM, [n_mu; n_Ekin; n_Ptor], [i_mu; i_Ekin; i_Ptor] =>
      let step_2 := n_Ptor * n_Ekin in
      let step_1 := n_Ptor in
      i_mu * step_2 + i_Ekin * step_1 + i_Ptor
  | _, _, _ => 0
  end.
Close Scope Z_scope.

(** ** markers *)
Record fo := FOM { f_run : bool; f_r : R; f_phi : R; f_z : R; f_p : vec; f_B : vec; f_rho : R; f_theta : R;
                   f_time : R; f_charge : R; f_mass : R; f_weight : R }.
Record gc := GCM { g_run : bool; g_r : R; g_phi : R; g_z : R; g_ppar : R; g_mu : R; g_B : vec; g_rho : R; g_theta : R;
                   g_time : R; g_charge : R; g_mass : R; g_weight : R }.
Section Coords.
(** elementary charge (consts.h), poloidal flux at a point, and the momentum of
    gctransform_pparmuzeta2prpphipz *)
Variables (E0 c0 : R) (psi : R -> R -> R -> R -> R) (mom : gc -> R * R * R).
(** dist_5D.c:113-116 *)
Definition wrap (phi : R) : R := let x := fmod phi (2 * PI) in if Rlt_dec x 0 then x + 2 * PI else x.
(** dist_5D.c:123-138 *)
Definition ppara (m : fo) : R := dot (f_p m) (f_B m) / sqrt (dot (f_B m) (f_B m)).
Definition pperp (m : fo) : R := sqrt (dot (f_p m) (f_p m) - ppara m * ppara m).
(** dist_5D.c:223-226 *)
Definition gperp (m : gc) : R := sqrt (2 * sqrt (dot (g_B m) (g_B m)) * g_mu m * g_mass m).
(** physlib.h:182, 115, 128; dist_com.c:88-108, 171-183; physlib.h:295, 314 *)
Definition gc_mu (mass p xi B : R) : R := p * p * (1 - xi * xi) / (2 * B * mass).
Definition ekin_p (mass p : R) : R := (sqrt (1 + (p / (mass * c0)) * (p / (mass * c0))) - 1) * mass * (c0 * c0).
Definition ekin_ppar (mass mu pp B : R) : R :=
  (sqrt (1 + 2 * mu * B / (mass * (c0 * c0)) + pp * pp / (mass * mass * (c0 * c0))) - 1) * mass * (c0 * c0).
Definition coords_fo (t : dtype) (m : fo) : list R :=
  match t with
  | D5 => [f_r m; wrap (f_phi m); f_z m; ppara m; pperp m; f_time m; f_charge m / E0]
  | D6 => [f_r m; wrap (f_phi m); f_z m; vx (f_p m); vy (f_p m); vz (f_p m); f_time m; f_charge m / E0]
  | DR5 => [f_rho m; wrap (f_theta m); wrap (f_phi m); ppara m; pperp m; f_time m; f_charge m / E0]
  | DR6 => [f_rho m; wrap (f_theta m); wrap (f_phi m); vx (f_p m); vy (f_p m); vz (f_p m); f_time m; f_charge m / E0]
  | DCOM =>
      let Bn := norm (f_B m) in let pn := norm (f_p m) in
      let pp := dot (f_p m) (f_B m) / Bn in let xi := pp / pn in
      [gc_mu (f_mass m) pn xi Bn; ekin_p (f_mass m) pn;
       vy (f_p m) * f_r m + f_charge m * psi (f_r m) (f_phi m) (f_z m) (f_time m)]
  end.
Definition coords_gc (t : dtype) (m : gc) : list R :=
  let '(pr, pphi, pz) := mom m in
  match t with
  | D5 => [g_r m; wrap (g_phi m); g_z m; g_ppar m; gperp m; g_time m; g_charge m / E0]
  | D6 => [g_r m; wrap (g_phi m); g_z m; pr; pphi; pz; g_time m; g_charge m / E0]
  | DR5 => [g_rho m; wrap (g_theta m); wrap (g_phi m); g_ppar m; gperp m; g_time m; g_charge m / E0]
  | DR6 => [g_rho m; wrap (g_theta m); wrap (g_phi m); pr; pphi; pz; g_time m; g_charge m / E0]
  | DCOM =>
      let B := norm (g_B m) in
      [g_mu m; ekin_ppar (g_mass m) (g_mu m) (g_ppar m) B;
       g_charge m * psi (g_r m) (g_phi m) (g_z m) (g_time m) + g_ppar m * g_r m * vy (g_B m) / B]
  end.

(** ** updates *)
Definition bins (ax : list axis) (x : list R) : list Z := map (fun p => bin (fst p) (snd p)) (combine ax x).
(** i >= 0 && i <= n - 1 on every axis, dist_5D.c:234-240 *)
Definition ingrid (ax : list axis) (x : list R) : bool :=
  forallb (fun p => ((0 <=? bin (fst p) (snd p)) && (bin (fst p) (snd p) <=? an (fst p) - 1))%Z%bool) (combine ax x).
Definition hist := Z -> R.
Definition addto (h : hist) (i : Z) (w : R) : hist := fun j => if Z.eqb j i then h j + w else h j.

(** dist_*_update_gc: first loop sets ok and weight, the second deposits;
    slots are pairs (end of step, start of step) *)
Definition update_gc (t : dtype) (ax : list axis) (h : hist) (l : list (gc * gc)) : hist :=
  fold_left (fun h p =>
    let m := fst p in
    if (g_run m && ingrid ax (coords_gc t m))%bool
    then addto h (index t ax (bins ax (coords_gc t m))) (g_weight m * (g_time m - g_time (snd p)))
    else h) l h.
(** dist_*_update_fo on the CPU: index[] and weight[] are uninitialised stack
    arrays; [junk] is their content for slots the first loop does not set *)
Definition slot_fo (t : dtype) (ax : list axis) (p : fo * fo) (junk : Z * R) : Z * R :=
  let m := fst p in
  if (f_run m && ingrid ax (coords_fo t m))%bool
  then (index t ax (bins ax (coords_fo t m)), f_weight m * (f_time m - f_time (snd p)))
  else junk.
Definition update_fo (t : dtype) (ax : list axis) (h : hist) (l : list ((fo * fo) * (Z * R))) : hist :=
  fold_left (fun h q =>
    let '(p, junk) := q in
    let '(i, w) := slot_fo t ax p junk in
    if (f_run (fst p) && (0 <=? i)%Z && (i <? total t ax)%Z)%bool then addto h i w else h) l h.
End Coords.

(** ** diag.c:282-356 *)
Definition arraysum (stop : Z) (a b : hist) : hist :=
  fun i => if ((0 <=? i) && (i <? stop))%Z%bool then a i + b i else a i.
Record diag := DIAG { collect : dtype -> bool; axes : dtype -> list axis; histo : dtype -> hist }.
Definition dt_eqb (a b : dtype) : bool :=
  match a, b with D5, D5 | D6, D6 | DR5, DR5 | DR6, DR6 | DCOM, DCOM => true | _, _ => false end.
Definition put (f : dtype -> hist) (t : dtype) (h : hist) : dtype -> hist := fun s => if dt_eqb s t then h else f s.
Local Open Scope Z_scope.
(** number of elements summed; the 5D one leaves out n_phi (diag.c:290-292) *)
Definition stop_of (t : dtype) (ax : list axis) : Z :=
  match t, map an ax with
  | D5, [n_r; n_phi; n_z; n_ppara; n_pperp; n_time; n_q] => n_r * n_z * n_ppara * n_pperp * n_time * n_q
  | D6, [n_r; n_phi; n_z; n_pr; n_pphi; n_pz; n_time; n_q] => n_r * n_phi * n_z * n_pr * n_pphi * n_pz * n_time * n_q
  | DR5, [n_rho; n_theta; n_phi; n_ppara; n_pperp; n_time; n_q] => n_rho * n_theta * n_phi * n_ppara * n_pperp * n_time * n_q
  | DR6, [n_rho; n_theta; n_phi; n_pr; n_pphi; n_pz; n_time; n_q] => n_rho * n_theta * n_phi * n_pr * n_pphi * n_pz * n_time * n_q
  | DCOM, [n_mu; n_Ekin; n_Ptor] => n_mu * n_Ekin * n_Ptor
  | _, _ => 0
  end.
(** the array that is summed: the last block uses dist6D (diag.c:335-336) *)
Definition target (t : dtype) : dtype := match t with DCOM => D6 | _ => t end.
Definition sum1 (d2 : diag) (d1 : diag) (t : dtype) : diag :=
  if collect d1 t
  then DIAG (collect d1) (axes d1)
        (put (histo d1) (target t) (arraysum (stop_of t (axes d1 t)) (histo d1 (target t)) (histo d2 (target t))))
  else d1.
Definition diag_sum (d1 d2 : diag) : diag := fold_left (sum1 d2) [D5; D6; DR5; DR6; DCOM] d1.

(** ** hist.c *)
Definition ALLDIM : nat := 16.
(** hist.c:44-52 for one axis number: last matching request wins; the second
    component is the product of all matching bin counts *)
Definition hist_axis (req : list (nat * axis)) (i : nat) : axis * Z :=
  fold_left (fun s p => if Nat.eqb (fst p) i then (snd p, snd s * an (snd p)) else s) req (AX 0 1 0, 1).
Record histogram := HI { h_ax : nat -> axis; h_stride : nat -> Z; h_nbin : Z }.
(** hist.c:53-57: strides[i] for i from 14 down; [k] = 15 - i *)
Definition size1 (n : Z) : Z := if n =? 0 then 1 else n.
Fixpoint strides_down (ax : nat -> axis) (k : nat) : Z :=
  match k with
  | O => 1
  | S k => size1 (an (ax (15 - k)%nat)) * (match k with O => 1 | _ => strides_down ax k end)
  end.
Definition hist_init (req : list (nat * axis)) : histogram :=
  let ax := fun i => fst (hist_axis req i) in
  HI ax (fun i => strides_down ax (15 - i)) (fold_left (fun n i => n * snd (hist_axis req i)) (rev (seq 0 ALLDIM)) 1).
(** math.h:22 *)
Definition hbin (a : axis) (x : R) : Z := Int_part (IZR (an a) * (x - amin a) / (amax a - amin a)).
(** hist.c:112-172: axes 10-13 and 15 always use bin 0 *)
Definition hist_digit (h : histogram) (x : nat -> R) (i : nat) : Z :=
  match i with 10%nat | 11%nat | 12%nat | 13%nat | 15%nat => 0 | _ => hbin (h_ax h i) (x i) end.
Definition hist_index (h : histogram) (dg : nat -> Z) : Z :=
  fold_left (fun s i => s + dg i * h_stride h i) (seq 0 15) 0 + dg 15%nat.
(** hist.c:186-196: only the final position is checked (size_t, so a negative
    value is not below nbin) *)
Definition hist_update (h : histogram) (b : hist) (run : bool) (w : R) (x : nat -> R) : hist :=
  let i := hist_index h (hist_digit h x) in
  if (run && (0 <=? i) && (i <? h_nbin h))%bool then addto b i w else b.
