(** Proofs for the octree, its flattening and the accelerated search. *)
From Coq Require Import Reals List Arith ZArith Lia Lra Psatz Bool.
From Verif Require Import Vec MathModel MathProofs Wall3Model Wall3Proofs.
Import ListNotations.
Local Open Scope R_scope.

(** ** The flattened tree *)
Lemma upd_same : forall A (f : nat -> A) i v, upd f i v i = v.
Proof. intros. unfold upd. now rewrite Nat.eqb_refl. Qed.
Lemma upd_other : forall A (f : nat -> A) i v j, j <> i -> upd f i v j = f j.
Proof. intros. unfold upd. destruct (Nat.eqb_spec j i); congruence. Qed.
Lemma write_ids_out : forall l a pos j, (j < pos \/ pos + length l <= j)%nat -> write_ids a pos l j = a j.
Proof.
  induction l; intros b pos j H; auto. cbn in *. rewrite IHl by lia. apply upd_other. lia.
Qed.
Lemma write_ids_in : forall l a pos k, (k < length l)%nat -> write_ids a pos l (pos + k) = nth k l 0%nat.
Proof.
  induction l; intros b pos k H; cbn in *; [lia|]. destruct k.
  - rewrite Nat.add_0_r, write_ids_out by lia. apply upd_same.
  - replace (pos + S k)%nat with (S pos + k)%nat by lia. apply IHl. lia.
Qed.
Fixpoint sumlen (ls : list (list nat)) : nat := match ls with [] => 0%nat | l :: r => (length l + 1 + sumlen r)%nat end.
Lemma write_lists_out : forall ls a i next j, (i + length ls <= next)%nat ->
  (j < i \/ i + length ls <= j < next \/ next + sumlen ls <= j)%nat -> write_lists a i next ls j = a j.
Proof.
  induction ls as [|l ls]; intros a i next j L H; auto. cbn [write_lists sumlen length] in *.
  rewrite IHls by lia. rewrite write_ids_out by lia. rewrite !upd_other by lia. auto.
Qed.
Lemma map_nth_seq : forall (l : list nat), map (fun k => nth k l 0%nat) (seq 0 (length l)) = l.
Proof.
  induction l; auto. cbn [length seq map]. f_equal. rewrite <- seq_shift, map_map. exact IHl.
Qed.
Lemma write_lists_read : forall ls a i next c, (i + length ls <= next)%nat -> (c < length ls)%nat ->
  cell_ids (write_lists a i next ls) (i + c) = nth c ls [].
Proof.
  induction ls as [|l ls]; intros a i next c L C; cbn [length] in *; [lia|]. cbn [write_lists].
  destruct c as [|c].
  - rewrite Nat.add_0_r. unfold cell_ids. cbn [nth].
    rewrite (write_lists_out ls _ _ _ i), write_ids_out, upd_other, upd_same by lia.
    rewrite (write_lists_out ls _ _ _ next), write_ids_out, upd_same by lia.
    rewrite <- map_nth_seq. apply map_ext_in. intros k K. apply in_seq in K.
    rewrite write_lists_out by lia. replace (next + k + 1)%nat with (S next + k)%nat by lia. apply write_ids_in. lia.
  - replace (i + S c)%nat with (S i + c)%nat by lia. rewrite IHls by lia. reflexivity.
Qed.
Lemma tree_array_read : forall junk ls c, (c < length ls)%nat -> cell_ids (tree_array junk ls) c = nth c ls [].
Proof. intros. unfold tree_array. rewrite <- (write_lists_read ls junk 0 (length ls) c); auto. Qed.
Fixpoint total (ls : list (list nat)) : nat := match ls with [] => 0%nat | l :: r => (length l + total r)%nat end.
(** nothing is written past the 2*ncell + list_size allocated entries *)
Lemma tree_array_bounds : forall junk ls j, (2 * length ls + total ls <= j)%nat -> tree_array junk ls j = junk j.
Proof.
  intros. unfold tree_array. apply write_lists_out; [lia|]. right. right.
  assert (sumlen ls = length ls + total ls)%nat; [|lia]. clear. induction ls; cbn; auto. lia.
Qed.

(** ** Filling the cell table *)
Lemma cells_in : forall n ix iy iz, In (ix, iy, iz) (cells n) <-> (ix < n /\ iy < n /\ iz < n)%nat.
Proof.
  intros. unfold cells. rewrite in_flat_map. split.
  - intros (x & X & H). apply in_flat_map in H. destruct H as (y & Y & H). apply in_map_iff in H.
    destruct H as (z & E & Z). injection E as -> -> ->. apply in_seq in X, Y, Z. lia.
  - intros (X & Y & Z). exists ix. split; [apply in_seq; lia|]. apply in_flat_map. exists iy. split; [apply in_seq; lia|].
    apply in_map_iff. exists iz. split; auto. apply in_seq. lia.
Qed.
Lemma dm_unique : forall n q r q' r', (r < n -> r' < n -> q * n + r = q' * n + r' -> q = q' /\ r = r')%nat.
Proof. intros n q r q' r' A B E. apply (Nat.div_mod_unique n); auto. lia. Qed.
Lemma cell_index_inj : forall n a b c a' b' c', (b < n -> c < n -> b' < n -> c' < n ->
  cell_index n a b c = cell_index n a' b' c' -> a = a' /\ b = b' /\ c = c')%nat.
Proof.
  unfold cell_index. intros n a b c a' b' c' B C B' C' E.
  assert (E1 : ((a * n + b) * n + c = (a' * n + b') * n + c')%nat) by nia.
  apply dm_unique in E1; auto. destruct E1 as [E1 ->]. apply dm_unique in E1; auto. destruct E1 as [-> ->]. auto.
Qed.
Lemma cell_index_lt : forall n a b c, (a < n -> b < n -> c < n -> cell_index n a b c < n * n * n)%nat.
Proof. unfold cell_index. intros. nia. Qed.
Lemma cell_index_onto : forall n k, (k < n * n * n)%nat -> exists a b c, (a < n /\ b < n /\ c < n)%nat /\ cell_index n a b c = k.
Proof.
  intros n k H. assert (n <> 0)%nat by (intros ->; cbn in H; lia).
  exists (k / (n * n))%nat, (k / n mod n)%nat, (k mod n)%nat.
  assert (A : (k / n / n = k / (n * n))%nat) by now rewrite Nat.div_div.
  pose proof (Nat.div_mod k n). pose proof (Nat.div_mod (k / n) n). rewrite A in *.
  pose proof (Nat.mod_upper_bound k n). pose proof (Nat.mod_upper_bound (k / n) n). repeat split; auto.
  - apply Nat.div_lt_upper_bound; nia.
  - unfold cell_index. nia.
Qed.
Lemma fold_upd : forall A (K : Type) (key : K -> nat) (f : K -> A) l a0 x0, In x0 l ->
  (forall x, In x l -> key x = key x0 -> f x = f x0) ->
  fold_left (fun a x => upd a (key x) (f x)) l a0 (key x0) = f x0.
Proof.
  intros A K key f l. induction l as [|y l] using rev_ind; intros a0 x0 I U; [easy|].
  rewrite fold_left_app. cbn [fold_left]. unfold upd at 1.
  destruct (Nat.eqb_spec (key x0) (key y)).
  - apply U; auto. apply in_app_iff. right. now left.
  - apply IHl.
    + apply in_app_iff in I. destruct I as [I|[I|[]]]; auto. now subst.
    + intros x J. apply U. apply in_app_iff. now left.
Qed.
Lemma tri_list_at : forall tree lo hi n junk ix iy iz, (ix < n -> iy < n -> iz < n ->
  tri_list tree lo hi n junk (cell_index n ix iy iz) = octree_get tree (centre lo hi n (ix, iy, iz)))%nat.
Proof.
  intros tree lo hi n junk ix iy iz X Y Z. unfold tri_list.
  pose (key := fun c : nat * nat * nat => let '(a, b, c) := c in cell_index n a b c).
  pose (f := fun c => octree_get tree (centre lo hi n c)).
  assert (E : forall l a0, fold_left (fun f0 c => let '(jx, jy, jz) := c in
      upd f0 (cell_index n jx jy jz) (octree_get tree (centre lo hi n c))) l a0 =
      fold_left (fun a x => upd a (key x) (f x)) l a0).
  { induction l as [|[[a b] c] l IH]; intros; auto. cbn [fold_left]. rewrite IH. reflexivity. }
  rewrite E. apply (fold_upd _ _ key f (cells n) junk (ix, iy, iz)).
  - now apply cells_in.
  - intros [[a b] c] I K. apply cells_in in I. unfold key in K. apply cell_index_inj in K; try lia.
    destruct K as (-> & -> & ->). reflexivity.
Qed.

(** ** The octree *)
(** path taken by a point *)
Fixpoint path_ok (t : octree) (p : vec) (x : tri) : bool :=
  match t with
  | OLeaf _ _ _ => true
  | ONode b1 b2 ch =>
      match which (vx p) ((vx b1 + vx b2) / 2), which (vy p) ((vy b1 + vy b2) / 2), which (vz p) ((vz b1 + vz b2) / 2) with
      | Some a, Some b, Some c => tri_in_cube (ta x) (tb x) (tc x) (obb1 (ch a b c)) (obb2 (ch a b c)) && path_ok (ch a b c) p x
      | _, _, _ => false
      end
  end.
Lemma add_bb : forall t t1 t2 t3 id, obb1 (octree_add t t1 t2 t3 id) = obb1 t /\ obb2 (octree_add t t1 t2 t3 id) = obb2 t.
Proof. destruct t; auto. Qed.
Lemma add_path : forall t p x y id, path_ok (octree_add t (ta y) (tb y) (tc y) id) p x = path_ok t p x.
Proof.
  induction t as [|b1 b2 ch IH]; intros p x y id; auto. cbn [octree_add path_ok].
  destruct (which (vx p) _) as [a|]; auto. destruct (which (vy p) _) as [b|]; auto. destruct (which (vz p) _) as [c|]; auto.
  destruct (tri_in_cube (ta y) (tb y) (tc y) _ _); auto.
  destruct (add_bb (ch a b c) (ta y) (tb y) (tc y) id) as [-> ->]. now rewrite IH.
Qed.
Lemma get_add : forall t p y id, octree_get (octree_add t (ta y) (tb y) (tc y) id) p =
  match octree_get t p with Some l => Some (if path_ok t p y then l ++ [id] else l) | None => None end.
Proof.
  induction t as [|b1 b2 ch IH]; intros p y id; auto. cbn [octree_add octree_get path_ok].
  destruct (which (vx p) _) as [a|]; auto. destruct (which (vy p) _) as [b|]; auto. destruct (which (vz p) _) as [c|]; auto.
  destruct (tri_in_cube (ta y) (tb y) (tc y) _ _); cbn [andb]; [apply IH|].
  now destruct (octree_get (ch a b c) p).
Qed.
Lemma get_add_all : forall ts t p l, octree_get t p = Some l ->
  octree_get (add_all t ts) p = Some (l ++ filter (fun i => path_ok t p (nth i ts tri0)) (seq 0 (length ts))).
Proof.
  intros ts t p l G. unfold add_all.
  assert (K : forall k, octree_get (fold_left (fun t i => let x := nth i ts tri0 in octree_add t (ta x) (tb x) (tc x) i) (seq 0 k) t) p =
     Some (l ++ filter (fun i => path_ok t p (nth i ts tri0)) (seq 0 k)) /\
     forall x, path_ok (fold_left (fun t i => let x := nth i ts tri0 in octree_add t (ta x) (tb x) (tc x) i) (seq 0 k) t) p x = path_ok t p x).
  { induction k as [|k [IG IP]].
    - cbn. rewrite app_nil_r. auto.
    - rewrite seq_S, fold_left_app, filter_app. cbn [fold_left filter]. rewrite Nat.add_0_l. cbv zeta in *. split.
      + rewrite get_add, IG, IP. destruct (path_ok t p (nth k ts tri0)); [now rewrite app_assoc | now rewrite app_nil_r].
      + intros x. now rewrite add_path. }
  apply K.
Qed.
Lemma get_add_all_none : forall ts t p, octree_get t p = None -> octree_get (add_all t ts) p = None.
Proof.
  intros ts t p G. unfold add_all. generalize (seq 0 (length ts)) as s. intros s. revert t G. induction s; intros t G; auto.
  cbn [fold_left]. apply IHs. cbv zeta. rewrite get_add, G. auto.
Qed.

(** *** One axis *)
Definition pow2 (d : nat) : R := INR (2 ^ d).
Lemma pow2_pos : forall d, 0 < pow2 d.
Proof. intros. unfold pow2. apply lt_0_INR. apply Nat.neq_0_lt_0, Nat.pow_nonzero. lia. Qed.
Lemma pow2_S : forall d, pow2 (S d) = 2 * pow2 d.
Proof. intros. unfold pow2. replace (2 ^ S d)%nat with (2 * 2 ^ d)%nat by (cbn; lia). rewrite mult_INR. cbn. lra. Qed.
(** p lies strictly in cell i of the 2^d cells of [lo,hi] *)
Definition in_cell (d : nat) (lo hi : R) (i : nat) (p : R) : Prop :=
  (i < 2 ^ d)%nat /\ lo + INR i * ((hi - lo) / pow2 d) < p < lo + (INR i + 1) * ((hi - lo) / pow2 d).
Definition half (d i : nat) : bool := (2 ^ d <=? i)%nat.
Definition sub_lo (d : nat) (lo hi : R) (i : nat) : R := if half d i then (hi + lo) / 2 else lo.
Definition sub_hi (d : nat) (lo hi : R) (i : nat) : R := if half d i then hi else (hi + lo) / 2.
Definition sub_i (d i : nat) : nat := (if half d i then i - 2 ^ d else i)%nat.
Lemma axis_cell : forall d lo hi i, (i < 2 ^ S d)%nat ->
  (sub_i d i < 2 ^ d)%nat /\
  (sub_hi d lo hi i - sub_lo d lo hi i) / pow2 d = (hi - lo) / pow2 (S d) /\
  sub_lo d lo hi i + INR (sub_i d i) * ((hi - lo) / pow2 (S d)) = lo + INR i * ((hi - lo) / pow2 (S d)).
Proof.
  intros d lo hi i I. pose proof (pow2_pos d) as P. rewrite pow2_S. unfold sub_i, sub_lo, sub_hi, half.
  assert (2 ^ S d = 2 * 2 ^ d)%nat by (cbn; lia).
  destruct (Nat.leb_spec (2 ^ d) i) as [L|L].
  - split; [lia|]. split; [field; lra|]. rewrite minus_INR by lia. fold (pow2 d). field. lra.
  - split; [lia|]. split; [field; lra|]. reflexivity.
Qed.
Lemma axis_step : forall d lo hi i p, lo < hi -> in_cell (S d) lo hi i p ->
  which p ((lo - OEPS + (hi + OEPS)) / 2) = Some (half d i) /\
  in_cell d (sub_lo d lo hi i) (sub_hi d lo hi i) (sub_i d i) p /\ sub_lo d lo hi i < sub_hi d lo hi i.
Proof.
  intros d lo hi i p L [I [A B]]. destruct (axis_cell d lo hi i I) as (I' & G & O).
  pose proof (pow2_pos d) as P.
  set (g := (hi - lo) / pow2 (S d)) in *.
  assert (g0 : 0 < g) by (apply Rdiv_lt_0_compat; [lra | apply pow2_pos]).
  assert (M : (hi + lo) / 2 = lo + pow2 d * g) by (unfold g; rewrite pow2_S; field; lra).
  split; [|split].
  - unfold which, half. replace ((lo - OEPS + (hi + OEPS)) / 2) with ((hi + lo) / 2) by field. rewrite M.
    destruct (Nat.leb_spec (2 ^ d) i) as [Q|Q].
    + apply le_INR in Q. fold (pow2 d) in Q. destruct (Rlt_dec p _); [nra|]. destruct (Rlt_dec _ p); [auto|nra].
    + assert (Q' : INR i + 1 <= pow2 d) by (rewrite <- S_INR; apply le_INR; lia). destruct (Rlt_dec p _); [auto|nra].
  - split; auto. rewrite G. split; lra.
  - unfold sub_lo, sub_hi. destruct (half d i); lra.
Qed.

(** boxes on the way to the cell (i,j,k), root excluded *)
Fixpoint boxes (d : nat) (lo hi : vec) (i j k : nat) : list (vec * vec) :=
  match d with
  | 0%nat => []
  | S d' => let l := V (sub_lo d' (vx lo) (vx hi) i) (sub_lo d' (vy lo) (vy hi) j) (sub_lo d' (vz lo) (vz hi) k) in
            let h := V (sub_hi d' (vx lo) (vx hi) i) (sub_hi d' (vy lo) (vy hi) j) (sub_hi d' (vz lo) (vz hi) k) in
            (l, h) :: boxes d' l h (sub_i d' i) (sub_i d' j) (sub_i d' k)
  end.
Definition boxok (x : tri) (b : vec * vec) : bool := tri_in_cube (ta x) (tb x) (tc x) (grow1 (fst b)) (grow2 (snd b)).
Definition vlt (lo hi : vec) := vx lo < vx hi /\ vy lo < vy hi /\ vz lo < vz hi.
Definition vin_cell (d : nat) (lo hi : vec) (i j k : nat) (p : vec) : Prop :=
  in_cell d (vx lo) (vx hi) i (vx p) /\ in_cell d (vy lo) (vy hi) j (vy p) /\ in_cell d (vz lo) (vz hi) k (vz p).
Lemma create_bb : forall d lo hi, obb1 (octree_create d lo hi) = grow1 lo /\ obb2 (octree_create d lo hi) = grow2 hi.
Proof. destruct d as [|[|d]]; auto. Qed.
Lemma create_SS : forall d lo hi, octree_create (S (S d)) lo hi =
  ONode (grow1 lo) (grow2 hi) (fun a b c => octree_create (S d) (child_lo lo hi a b c) (child_hi lo hi a b c)).
Proof. reflexivity. Qed.
Lemma child_sub : forall d lo hi i j k,
  child_lo lo hi (half d i) (half d j) (half d k) =
    V (sub_lo d (vx lo) (vx hi) i) (sub_lo d (vy lo) (vy hi) j) (sub_lo d (vz lo) (vz hi) k) /\
  child_hi lo hi (half d i) (half d j) (half d k) =
    V (sub_hi d (vx lo) (vx hi) i) (sub_hi d (vy lo) (vy hi) j) (sub_hi d (vz lo) (vz hi) k).
Proof. intros. unfold child_lo, child_hi, midp, sub_lo, sub_hi. split; reflexivity. Qed.
Lemma create_path : forall d lo hi i j k p, vlt lo hi -> vin_cell d lo hi i j k p ->
  octree_get (octree_create (S d) lo hi) p = Some [] /\
  forall x, path_ok (octree_create (S d) lo hi) p x = forallb (boxok x) (boxes d lo hi i j k).
Proof.
  induction d as [|d IH]; intros lo hi i j k p L C; [split; reflexivity|].
  rewrite create_SS. cbn [octree_get path_ok boxes forallb]. destruct L as (L1 & L2 & L3), C as (C1 & C2 & C3).
  destruct (axis_step _ _ _ _ _ L1 C1) as (W1 & N1 & M1), (axis_step _ _ _ _ _ L2 C2) as (W2 & N2 & M2),
    (axis_step _ _ _ _ _ L3 C3) as (W3' & N3 & M3).
  cbn [grow1 grow2 vx vy vz]. rewrite W1, W2, W3'.
  destruct (child_sub d lo hi i j k) as [E1 E2]. rewrite E1, E2. cbv beta iota zeta.
  set (l := V _ _ _). set (h := V (sub_hi _ _ _ _) _ _).
  destruct (create_bb (S d) l h) as [B1 B2]. rewrite B1, B2.
  destruct (IH l h (sub_i d i) (sub_i d j) (sub_i d k) p) as [G Pt].
  { repeat split; auto. } { repeat split; cbn [vx vy vz l h]; try apply N1; try apply N2; apply N3. }
  split; auto. intros x. rewrite Pt. reflexivity.
Qed.
(** the triangles listed for a point strictly inside the cell (i,j,k) *)
Theorem octree_lookup : forall d lo hi ts i j k p, vlt lo hi -> vin_cell d lo hi i j k p ->
  octree_get (add_all (octree_create (S d) lo hi) ts) p =
  Some (filter (fun m => forallb (boxok (nth m ts tri0)) (boxes d lo hi i j k)) (seq 0 (length ts))).
Proof.
  intros d lo hi ts i j k p L C. destruct (create_path d lo hi i j k p L C) as [G P].
  rewrite (get_add_all ts _ p [] G). cbn [app]. f_equal. apply filter_ext. intros m. apply P.
Qed.

(** every box on the way contains the cell; the last one is the cell *)
Definition cell_lo (d : nat) (lo hi : vec) (i j k : nat) : vec :=
  V (vx lo + INR i * ((vx hi - vx lo) / pow2 d)) (vy lo + INR j * ((vy hi - vy lo) / pow2 d)) (vz lo + INR k * ((vz hi - vz lo) / pow2 d)).
Definition cell_hi (d : nat) (lo hi : vec) (i j k : nat) : vec :=
  V (vx lo + (INR i + 1) * ((vx hi - vx lo) / pow2 d)) (vy lo + (INR j + 1) * ((vy hi - vy lo) / pow2 d)) (vz lo + (INR k + 1) * ((vz hi - vz lo) / pow2 d)).
Definition vle (a b : vec) := vx a <= vx b /\ vy a <= vy b /\ vz a <= vz b.
Definition vrange d (i j k : nat) := (i < 2 ^ d /\ j < 2 ^ d /\ k < 2 ^ d)%nat.
Lemma cell_sub : forall d lo hi i j k, vrange (S d) i j k ->
  let l := V (sub_lo d (vx lo) (vx hi) i) (sub_lo d (vy lo) (vy hi) j) (sub_lo d (vz lo) (vz hi) k) in
  let h := V (sub_hi d (vx lo) (vx hi) i) (sub_hi d (vy lo) (vy hi) j) (sub_hi d (vz lo) (vz hi) k) in
  cell_lo d l h (sub_i d i) (sub_i d j) (sub_i d k) = cell_lo (S d) lo hi i j k /\
  cell_hi d l h (sub_i d i) (sub_i d j) (sub_i d k) = cell_hi (S d) lo hi i j k /\ vrange d (sub_i d i) (sub_i d j) (sub_i d k).
Proof.
  intros d lo hi i j k (I & J & K) l h. unfold cell_lo, cell_hi, l, h. cbn [vx vy vz].
  destruct (axis_cell d (vx lo) (vx hi) i I) as (A1 & A2 & A3).
  destruct (axis_cell d (vy lo) (vy hi) j J) as (B1 & B2 & B3).
  destruct (axis_cell d (vz lo) (vz hi) k K) as (C1 & C2 & C3).
  rewrite A2, B2, C2, A3, B3, C3. split; auto. split; [|repeat split; auto]. f_equal; lra.
Qed.
Lemma cell_inside : forall d lo hi i j k, vlt lo hi -> vrange d i j k ->
  vle lo (cell_lo d lo hi i j k) /\ vle (cell_hi d lo hi i j k) hi.
Proof.
  intros d lo hi i j k (L1 & L2 & L3) (I & J & K). unfold vle, cell_lo, cell_hi. cbn [vx vy vz].
  assert (A : forall l h n, l < h -> (n < 2 ^ d)%nat -> l <= l + INR n * ((h - l) / pow2 d) /\ l + (INR n + 1) * ((h - l) / pow2 d) <= h).
  { clear. intros l h n L N. pose proof (pow2_pos d). pose proof (pos_INR n).
    assert (Q : INR n + 1 <= pow2 d) by (rewrite <- S_INR; apply le_INR; lia).
    assert (g : 0 < (h - l) / pow2 d) by (apply Rdiv_lt_0_compat; lra). split; [nra|].
    assert ((h - l) / pow2 d * pow2 d = h - l) by (field; lra). nra. }
  destruct (A _ _ _ L1 I), (A _ _ _ L2 J), (A _ _ _ L3 K). auto.
Qed.
Lemma boxes_contain : forall d lo hi i j k b, vlt lo hi -> vrange d i j k -> In b (boxes d lo hi i j k) ->
  vle (fst b) (cell_lo d lo hi i j k) /\ vle (cell_hi d lo hi i j k) (snd b).
Proof.
  induction d as [|d IH]; intros lo hi i j k b L Rg I; [easy|]. cbn [boxes] in I.
  destruct (cell_sub d lo hi i j k Rg) as (E1 & E2 & E3). rewrite <- E1, <- E2. clear E1 E2.
  set (l := V _ _ _) in *. set (h := V (sub_hi _ _ _ _) _ _) in *.
  assert (L' : vlt l h).
  { destruct L as (L1 & L2 & L3). unfold vlt, l, h, sub_lo, sub_hi. cbn [vx vy vz].
    destruct (half d i), (half d j), (half d k); repeat split; lra. }
  destruct I as [<-|I]; [|apply IH; auto]. cbn [fst snd]. apply cell_inside; auto.
Qed.
Lemma boxes_last : forall d lo hi i j k, vrange (S d) i j k ->
  In (cell_lo (S d) lo hi i j k, cell_hi (S d) lo hi i j k) (boxes (S d) lo hi i j k).
Proof.
  induction d as [|d IH]; intros lo hi i j k Rg.
  - destruct (cell_sub 0 lo hi i j k Rg) as (E1 & E2 & (I & J & K)). rewrite <- E1, <- E2. left.
    unfold cell_lo, cell_hi, pow2 in *. cbn [vx vy vz]. assert (Z : forall n, (n < 2 ^ 0)%nat -> n = 0%nat) by (cbn; lia).
    rewrite (Z _ I), (Z _ J), (Z _ K). cbn [pow INR Nat.pow]. cbn [boxes vx vy vz]. f_equal; f_equal; field.
  - destruct (cell_sub (S d) lo hi i j k Rg) as (E1 & E2 & Rg'). rewrite <- E1, <- E2. right. apply IH. auto.
Qed.
(** a vertex strictly inside the enlarged leaf box is enough *)
Definition strictly_in (lo hi x : vec) := vlt lo x /\ vlt x hi.
Lemma vertex_in_cube : forall t1 t2 t3 b1 b2, strictly_in b1 b2 t1 \/ strictly_in b1 b2 t2 \/ strictly_in b1 b2 t3 ->
  tri_in_cube t1 t2 t3 b1 b2 = true.
Proof.
  intros t1 t2 t3 b1 b2 H. unfold tri_in_cube. cbv zeta.
  assert (E : forall a b, a < b -> leb a b = true) by (intros; unfold leb; destruct (Rle_dec _ _); auto; lra).
  assert (F : forall a b, a < b -> ltb a b = true) by (intros; unfold ltb; destruct (Rlt_dec _ _); auto; lra).
  destruct (_ && _ && _ && _ && _ && _) eqn:Q1; auto.
  destruct (ltb _ _ && _ && _ && _ && _ && _) eqn:Q2; auto.
  destruct (leb (vx b1) (vx t3) && _ && _ && _ && _ && _) eqn:Q3; auto. exfalso.
  destruct H as [((?&?&?)&(?&?&?))|[((?&?&?)&(?&?&?))|((?&?&?)&(?&?&?))]].
  - rewrite !E in Q1 by auto. discriminate.
  - rewrite F, !E in Q2 by auto. discriminate.
  - rewrite !E in Q3 by auto. discriminate.
Qed.
Theorem octree_vertex_listed : forall d lo hi ts i j k p m x, vlt lo hi -> vin_cell d lo hi i j k p ->
  nth_error ts m = Some x ->
  (exists v, (v = ta x \/ v = tb x \/ v = tc x) /\ strictly_in (cell_lo d lo hi i j k) (cell_hi d lo hi i j k) v) ->
  exists ids, octree_get (add_all (octree_create (S d) lo hi) ts) p = Some ids /\ In m ids.
Proof.
  intros d lo hi ts i j k p m x L C N (v & V' & I). rewrite (octree_lookup d lo hi ts i j k p L C).
  eexists. split; [reflexivity|]. apply filter_In. split.
  - apply in_seq. assert (m < length ts)%nat by (apply nth_error_Some; congruence). lia.
  - apply forallb_forall. intros b B. destruct C as ((I1 & _) & (I2 & _) & (I3 & _)).
    destruct (boxes_contain d lo hi i j k b L (conj I1 (conj I2 I3)) B) as ((A1 & A2 & A3) & (A4 & A5 & A6)).
    apply nth_error_nth with (d := tri0) in N. rewrite N. unfold boxok. apply vertex_in_cube.
    destruct I as ((X1 & X2 & X3) & (X4 & X5 & X6)).
    assert (strictly_in (grow1 (fst b)) (grow2 (snd b)) v).
    { assert (0 < OEPS) by (unfold OEPS; lra). unfold strictly_in, vlt, grow1, grow2. cbn [vx vy vz]. repeat split; lra. }
    destruct V' as [->|[->| ->]]; auto.
Qed.
(** a point on a dividing plane reaches no leaf *)
Definition on_plane (d : nat) (lo hi p : R) : Prop :=
  exists m, (0 < m < 2 ^ d)%nat /\ p = lo + INR m * ((hi - lo) / pow2 d).
Lemma plane_step : forall d lo hi p a, lo < hi -> on_plane (S d) lo hi p ->
  which p ((lo - OEPS + (hi + OEPS)) / 2) = Some a ->
  on_plane d (if a then (hi + lo) / 2 else lo) (if a then hi else (hi + lo) / 2) p.
Proof.
  intros d lo hi p a L (m & M & E) W. pose proof (pow2_pos d) as P.
  set (g := (hi - lo) / pow2 (S d)) in *.
  assert (g0 : 0 < g) by (apply Rdiv_lt_0_compat; [lra | apply pow2_pos]).
  assert (Mid : (hi + lo) / 2 = lo + pow2 d * g) by (unfold g; rewrite pow2_S; field; lra).
  replace ((lo - OEPS + (hi + OEPS)) / 2) with ((hi + lo) / 2) in W by field. unfold which in W.
  assert (X : (2 ^ S d = 2 * 2 ^ d)%nat) by (cbn; lia).
  destruct (Rlt_dec p ((hi + lo) / 2)) as [Q|Q]; [|destruct (Rlt_dec ((hi + lo) / 2) p) as [Q'|Q']]; [| |discriminate]; injection W as <-.
  - exists m. split.
    + assert (INR m < pow2 d) by nra. unfold pow2 in H. apply INR_lt in H. lia.
    + rewrite E. unfold g. rewrite pow2_S. field. lra.
  - assert (H : pow2 d < INR m) by nra. unfold pow2 in H. apply INR_lt in H. exists (m - 2 ^ d)%nat. split; [lia|].
    rewrite minus_INR by lia. fold (pow2 d). rewrite E. unfold g. rewrite pow2_S. field. lra.
Qed.
Theorem octree_plane_none : forall d lo hi ts p, vlt lo hi ->
  on_plane d (vx lo) (vx hi) (vx p) \/ on_plane d (vy lo) (vy hi) (vy p) \/ on_plane d (vz lo) (vz hi) (vz p) ->
  octree_get (add_all (octree_create (S d) lo hi) ts) p = None.
Proof.
  intros d lo hi ts p L H. apply get_add_all_none. revert lo hi L H.
  induction d as [|d IH]; intros lo hi L H.
  { exfalso. destruct H as [(m & M & _)|[(m & M & _)|(m & M & _)]]; cbn in M; lia. }
  rewrite create_SS. cbn [octree_get]. cbn [grow1 grow2 vx vy vz].
  destruct (which (vx p) _) as [a|] eqn:W1; auto. destruct (which (vy p) _) as [b|] eqn:W2; auto.
  destruct (which (vz p) _) as [c|] eqn:W3'; auto. destruct L as (L1 & L2 & L3). apply IH.
  - unfold vlt, child_lo, child_hi, midp. cbn [vx vy vz]. destruct a, b, c; repeat split; lra.
  - unfold child_lo, child_hi, midp. cbn [vx vy vz].
    destruct H as [H|[H|H]]; [left|right; left|right; right]; eapply plane_step in H; eauto; destruct a, b, c; exact H.
Qed.
(** every point of the root box off the dividing planes lies in one cell *)
Lemma off_cell : forall d lo hi p, lo < hi -> lo < p < hi -> ~ on_plane d lo hi p -> exists i, in_cell d lo hi i p.
Proof.
  intros d lo hi p L [A B] N. pose proof (pow2_pos d) as P. set (g := (hi - lo) / pow2 d) in *.
  assert (g0 : 0 < g) by (apply Rdiv_lt_0_compat; lra).
  assert (Hi : hi = lo + pow2 d * g) by (unfold g; field; lra).
  destruct (floor_spec ((p - lo) / g)) as [F1 F2]. unfold floorR in *. set (z := Int_part ((p - lo) / g)) in *.
  assert (q : (p - lo) / g * g = p - lo) by (field; lra).
  assert (Z0 : (0 <= z)%Z).
  { assert (- 1 < IZR z) by (assert (0 < (p - lo) / g) by (apply Rdiv_lt_0_compat; lra); lra).
    apply lt_IZR in H. lia. }
  assert (ZI : INR (Z.to_nat z) = IZR z) by (rewrite INR_IZR_INZ, Z2Nat.id; auto).
  assert (Zl : IZR z < pow2 d) by nra. rewrite <- ZI in Zl. unfold pow2 in Zl. apply INR_lt in Zl.
  exists (Z.to_nat z). split; auto. fold g. rewrite ZI. split; [|nra].
  destruct (Rle_lt_or_eq_dec (lo + IZR z * g) p); [nra|auto|]. exfalso. apply N. exists (Z.to_nat z).
  fold g. rewrite ZI. split; [|auto]. split; auto. destruct (Z.to_nat z) eqn:Q; [|lia]. cbn in ZI. rewrite <- ZI in e. lra.
Qed.
Lemma in_cell_unique : forall d lo hi i j p, lo < hi -> in_cell d lo hi i p -> in_cell d lo hi j p -> i = j.
Proof.
  intros d lo hi i j p L [_ [A B]] [_ [C D]]. pose proof (pow2_pos d).
  assert (g : 0 < (hi - lo) / pow2 d) by (apply Rdiv_lt_0_compat; lra).
  assert (INR i < INR j + 1) by nra. assert (INR j < INR i + 1) by nra. rewrite <- S_INR in *.
  apply INR_lt in H0, H1. lia.
Qed.
Theorem octree_leaf : forall d lo hi ts p, vlt lo hi -> strictly_in lo hi p ->
  ~ on_plane d (vx lo) (vx hi) (vx p) -> ~ on_plane d (vy lo) (vy hi) (vy p) -> ~ on_plane d (vz lo) (vz hi) (vz p) ->
  exists i j k, vin_cell d lo hi i j k p /\
    (forall i' j' k', vin_cell d lo hi i' j' k' p -> i' = i /\ j' = j /\ k' = k) /\
    exists ids, octree_get (add_all (octree_create (S d) lo hi) ts) p = Some ids /\
      (forall m, In m ids -> (m < length ts)%nat) /\
      forall m x, nth_error ts m = Some x ->
        (exists v, (v = ta x \/ v = tb x \/ v = tc x) /\ strictly_in (cell_lo d lo hi i j k) (cell_hi d lo hi i j k) v) ->
        In m ids.
Proof.
  intros d lo hi ts p (L1 & L2 & L3) ((A1 & A2 & A3) & (B1 & B2 & B3)) N1 N2 N3.
  destruct (off_cell d _ _ _ L1 (conj A1 B1) N1) as (i & I). destruct (off_cell d _ _ _ L2 (conj A2 B2) N2) as (j & J).
  destruct (off_cell d _ _ _ L3 (conj A3 B3) N3) as (k & K). exists i, j, k.
  assert (C : vin_cell d lo hi i j k p) by (repeat split; auto; try apply I; try apply J; apply K).
  assert (L : vlt lo hi) by (repeat split; auto).
  split; auto. split.
  { intros i' j' k' (X & Y & Z). split; [|split]; [exact (in_cell_unique _ _ _ _ _ _ L1 X I) | exact (in_cell_unique _ _ _ _ _ _ L2 Y J) | exact (in_cell_unique _ _ _ _ _ _ L3 Z K)]. }
  rewrite (octree_lookup d lo hi ts i j k p L C). eexists. split; [reflexivity|]. split.
  - intros m M. apply filter_In in M. destruct M as [M _]. apply in_seq in M. lia.
  - intros m x Nm Hv. destruct (octree_vertex_listed d lo hi ts i j k p m x L C Nm Hv) as (ids & E & M).
    rewrite (octree_lookup d lo hi ts i j k p L C) in E. injection E as <-. auto.
Qed.
