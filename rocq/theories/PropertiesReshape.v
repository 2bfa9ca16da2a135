(** Properties of the rearrangement of snapshots (C97). *)
From Coq Require Import ZArith List Bool Lia.
From Verif Require Import ListAux FdKernels FdProofs FdOutputProofs Marchenko PropertiesDft ReshapeSpec Reshape.
Import ListNotations.
Local Open Scope Z_scope.

(** ** auxiliary: loops that write every cell once *)
Lemma cells_hit {A V} (a : A -> Z) (v : A -> V) l : forall o, (forall c c', In c l -> In c' l -> a c = a c' -> v c = v c') -> forall c, In c l -> fold_left (fun o c => upd o (a c) (v c)) l o (a c) = v c.
Proof.
  induction l as [|h l IH] using rev_ind; intros o H c Hc; [destruct Hc|]. rewrite fold_left_app. cbn [fold_left]. rewrite upd_eq. destruct (Z.eqb_spec (a c) (a h)) as [E|E].
  - symmetry. apply H; [exact Hc|apply in_or_app; right; now left|exact E].
  - apply in_app_or in Hc. destruct Hc as [Hc|[Hc|[]]]; [|congruence]. apply IH; [|exact Hc]. intros c1 c2 H1 H2. apply H; apply in_or_app; now left.
Qed.
Lemma cells_miss {A V} (a : A -> Z) (v : A -> V) x l : (forall c, In c l -> a c <> x) -> forall o, fold_left (fun o c => upd o (a c) (v c)) l o x = o x.
Proof.
  induction l as [|h l IH]; intros H o; [reflexivity|]. cbn [fold_left]. rewrite IH by (intros; apply H; now right). rewrite upd_eq. destruct (Z.eqb_spec x (a h)) as [E|E]; [|reflexivity]. exfalso. apply (H h); [now left|congruence].
Qed.
Lemma fold_flat_map {A B C} (g : A -> list B) (f : C -> B -> C) l : forall o, fold_left f (flat_map g l) o = fold_left (fun o x => fold_left f (g x) o) l o.
Proof. induction l as [|x l IH]; intros o; [reflexivity|]. cbn [flat_map fold_left]. rewrite fold_left_app. apply IH. Qed.
Lemma fold_map {A B C} (g : A -> B) (f : C -> B -> C) l : forall o, fold_left f (map g l) o = fold_left (fun o x => f o (g x)) l o.
Proof. induction l as [|x l IH]; intros o; [reflexivity|]. cbn [map fold_left]. apply IH. Qed.
Lemma fold_inv_in {A B} (P : A -> Prop) (f : A -> B -> A) l : forall o, P o -> (forall o x, In x l -> P o -> P (f o x)) -> P (fold_left f l o).
Proof. induction l as [|x l IH]; intros o H Hf; [exact H|]. cbn [fold_left]. apply IH; [apply Hf; [now left|exact H]|]. intros; apply Hf; [now right|assumption]. Qed.
(** the index tuples of four nested loops *)
Definition box (a0 a1 b0 b1 c0 c1 d0 d1 : Z) : list (Z * Z * Z * Z) := flat_map (fun a => flat_map (fun b => flat_map (fun c => map (fun d => (a, b, c, d)) (range d0 d1)) (range c0 c1)) (range b0 b1)) (range a0 a1).
Lemma in_box a0 a1 b0 b1 c0 c1 d0 d1 a b c d : In (a, b, c, d) (box a0 a1 b0 b1 c0 c1 d0 d1) <-> a0 <= a < a1 /\ b0 <= b < b1 /\ c0 <= c < c1 /\ d0 <= d < d1.
Proof.
  unfold box. split.
  - intros H. apply in_flat_map in H. destruct H as (a' & Ha & H). apply in_flat_map in H. destruct H as (b' & Hb & H). apply in_flat_map in H. destruct H as (c' & Hc & H). apply in_map_iff in H. destruct H as (d' & E & Hd). apply in_range in Ha, Hb, Hc, Hd. inversion E; subst. auto.
  - intros (Ha & Hb & Hc & Hd). apply in_flat_map. exists a. split; [now apply in_range|]. apply in_flat_map. exists b. split; [now apply in_range|]. apply in_flat_map. exists c. split; [now apply in_range|]. apply in_map_iff. exists d. split; [reflexivity|now apply in_range].
Qed.
Lemma fold_box {C} (f : C -> Z -> Z -> Z -> Z -> C) a0 a1 b0 b1 c0 c1 d0 d1 o :
  fold_left (fun o a => fold_left (fun o b => fold_left (fun o c => fold_left (fun o d => f o a b c d) (range d0 d1) o) (range c0 c1) o) (range b0 b1) o) (range a0 a1) o = fold_left (fun o '(a, b, c, d) => f o a b c d) (box a0 a1 b0 b1 c0 c1 d0 d1) o.
Proof.
  unfold box. rewrite fold_flat_map. apply PropertiesDft.fold_left_ext. intros o1 a _. rewrite fold_flat_map. apply PropertiesDft.fold_left_ext. intros o2 b _. rewrite fold_flat_map. apply PropertiesDft.fold_left_ext. intros o3 c _. rewrite fold_map. reflexivity.
Qed.
Lemma index_inj nb nc nd a b c d a' b' c' d' : 0 <= b < nb -> 0 <= c < nc -> 0 <= d < nd -> 0 <= b' < nb -> 0 <= c' < nc -> 0 <= d' < nd -> index4 nb nc nd a b c d = index4 nb nc nd a' b' c' d' -> a = a' /\ b = b' /\ c = c' /\ d = d'.
Proof.
  unfold index4. intros Hb Hc Hd Hb' Hc' Hd' E. destruct (Z.div_mod_unique nd ((a * nb + b) * nc + c) ((a' * nb + b') * nc + c') d d') as [E1 E2]; [lia|lia|rewrite !(Z.mul_comm nd); exact E|].
  destruct (Z.div_mod_unique nc (a * nb + b) (a' * nb + b') c c') as [E3 E4]; [lia|lia|rewrite !(Z.mul_comm nc); exact E1|]. destruct (Z.div_mod_unique nb a a' b b') as [E5 E6]; [lia|lia|rewrite !(Z.mul_comm nb); exact E3|]. auto.
Qed.
Lemma index_bounds na nb nc nd a b c d : 0 <= a < na -> 0 <= b < nb -> 0 <= c < nc -> 0 <= d < nd -> 0 <= index4 nb nc nd a b c d < na * nb * nc * nd.
Proof.
  intros A B C D. unfold index4. assert (G : forall n m u w, 0 <= u < n -> 0 <= w < m -> 0 <= u * m + w < n * m).
  { intros n m u w U W. pose proof (Z.mul_nonneg_nonneg u m ltac:(lia) ltac:(lia)). pose proof (Z.mul_le_mono_nonneg_r (u + 1) n m ltac:(lia) ltac:(lia)). lia. }
  apply G; [|exact D]. apply G; [|exact C]. now apply G.
Qed.
(** ** C97 *)
(** C97: reshape exchanges the first and the last dimension, and changes nothing behind the array. *)
Theorem C97_reshape {V} n1 n2 n3 n4 (indata outdata : Z -> V) : let out := reshape n1 n2 n3 n4 indata outdata in
  (forall i1 i2 i3 i4, 0 <= i1 < n1 -> 0 <= i2 < n2 -> 0 <= i3 < n3 -> 0 <= i4 < n4 -> out (index4 n3 n2 n4 i1 i3 i2 i4) = indata (index4 n3 n2 n1 i4 i3 i2 i1)) /\
  (forall x, ~ 0 <= x < n1 * n3 * n2 * n4 -> out x = outdata x).
Proof.
  intros out. set (a := fun '((i4, i3, i2, i1) : Z * Z * Z * Z) => index4 n3 n2 n4 i1 i3 i2 i4). set (v := fun '((i4, i3, i2, i1) : Z * Z * Z * Z) => indata (index4 n3 n2 n1 i4 i3 i2 i1)).
  assert (E : out = fold_left (fun o c => upd o (a c) (v c)) (box 0 n4 0 n3 0 n2 0 n1) outdata).
  { unfold out, reshape. rewrite (fold_box (fun o i4 i3 i2 i1 => upd o (i1 * n4 * n2 * n3 + i3 * n4 * n2 + i2 * n4 + i4) (indata (i4 * n1 * n2 * n3 + i3 * n1 * n2 + i2 * n1 + i1)))). apply PropertiesDft.fold_left_ext. intros o [[[i4 i3] i2] i1] _. unfold a, v, index4. f_equal; [ring|]. f_equal. ring. }
  rewrite E. split.
  - intros i1 i2 i3 i4 H1 H2 H3 H4. apply (cells_hit a v _ outdata) with (c := (i4, i3, i2, i1)).
    + intros [[[j4 j3] j2] j1] [[[k4 k3] k2] k1] HJ HK Eq. apply in_box in HJ, HK. unfold a in Eq. apply index_inj in Eq; try lia. destruct Eq as (-> & -> & -> & ->). reflexivity.
    + apply in_box. auto.
  - intros x Hx. apply cells_miss. intros [[[i4 i3] i2] i1] H Eq. apply in_box in H. apply Hx. rewrite <- Eq. unfold a. apply index_bounds; lia.
Qed.
Print Assumptions C97_reshape.
(** C97: reshaping back gives the data again. *)
Theorem C97_round_trip {V} n1 n2 n3 n4 (indata o o' : Z -> V) i1 i2 i3 i4 : 0 <= i1 < n1 -> 0 <= i2 < n2 -> 0 <= i3 < n3 -> 0 <= i4 < n4 ->
  reshape n4 n2 n3 n1 (reshape n1 n2 n3 n4 indata o) o' (index4 n3 n2 n1 i4 i3 i2 i1) = indata (index4 n3 n2 n1 i4 i3 i2 i1).
Proof. intros H1 H2 H3 H4. destruct (C97_reshape n4 n2 n3 n1 (reshape n1 n2 n3 n4 indata o) o') as [R1 _]. rewrite R1 by assumption. destruct (C97_reshape n1 n2 n3 n4 indata o) as [R2 _]. now rewrite R2. Qed.
Print Assumptions C97_round_trip.
(** C97: reading a part of the snapshots *)
Theorem C97_read {V} nsnaps nx ny nz sx ex sy ey sz ez (file data : Z -> V) : let out := read_snap nsnaps nx ny nz sx ex sy ey sz ez file data in
  (forall it iy ix iz, 0 <= it < nsnaps -> sy <= iy < ey -> sx <= ix < ex -> sz <= iz < ez -> out (index4 (ey - sy) (ex - sx) (ez - sz) it (iy - sy) (ix - sx) (iz - sz)) = file (index4 ny nx nz it iy ix iz)) /\
  (forall x, ~ 0 <= x < nsnaps * (ey - sy) * (ex - sx) * (ez - sz) -> out x = data x).
Proof.
  intros out. set (a := fun '((iz, iy, ix, it) : Z * Z * Z * Z) => index4 (ey - sy) (ex - sx) (ez - sz) it (iy - sy) (ix - sx) (iz - sz)). set (v := fun '((iz, iy, ix, it) : Z * Z * Z * Z) => file (index4 ny nx nz it iy ix iz)).
  assert (E : out = fold_left (fun o c => upd o (a c) (v c)) (box sz ez sy ey sx ex 0 nsnaps) data).
  { unfold out, read_snap. cbv zeta. rewrite (fold_box (fun o iz iy ix it => upd o (it * (ey - sy) * (ex - sx) * (ez - sz) + (iy - sy) * (ex - sx) * (ez - sz) + (ix - sx) * (ez - sz) + iz - sz) (file (it * ny * nx * nz + iy * nx * nz + ix * nz + iz)))). apply PropertiesDft.fold_left_ext. intros o [[[iz iy] ix] it] _. unfold a, v, index4. f_equal; [ring|]. f_equal. ring. }
  rewrite E. split.
  - intros it iy ix iz H1 H2 H3 H4. apply (cells_hit a v _ data) with (c := (iz, iy, ix, it)).
    + intros [[[jz jy] jx] jt] [[[kz ky] kx] kt] HJ HK Eq. apply in_box in HJ, HK. unfold a in Eq. apply index_inj in Eq; try lia. destruct Eq as (E1 & E2 & E3 & E4). replace kz with jz by lia. replace ky with jy by lia. replace kx with jx by lia. now subst kt.
    + apply in_box. auto.
  - intros x Hx. apply cells_miss. intros [[[iz iy] ix] it] H Eq. apply in_box in H. apply Hx. rewrite <- Eq. unfold a. apply index_bounds; lia.
Qed.
Print Assumptions C97_read.
(** C97: snap2shot: at every depth the trace of position (iy, ix) and shot ixr holds the snapshots of file ixr at this point. *)
Theorem C97_shots {V} nxr dnz nys nxs nts (snap : Z -> Z -> V) rcv iz iy ix ixr it : 0 <= iz < dnz -> 0 <= iy < nys -> 0 <= ix < nxs -> 0 <= ixr < nxr -> 0 <= it < nts ->
  snap2shot nxr dnz nys nxs nts snap rcv (index4 nxs nxr nts (iz * nys + iy) ix ixr it) = snap ixr (index4 nys nxs dnz it iy ix iz).
Proof.
  intros Hz Hy Hx Hr Ht. set (a := fun '((r, (z, y, x, t)) : Z * (Z * Z * Z * Z)) => index4 nxs nxr nts (z * nys + y) x r t). set (v := fun '((r, (z, y, x, t)) : Z * (Z * Z * Z * Z)) => snap r (index4 nys nxs dnz t y x z)). set (l := flat_map (fun r => map (fun q => (r, q)) (box 0 dnz 0 nys 0 nxs 0 nts)) (range 0 nxr)).
  assert (E : snap2shot nxr dnz nys nxs nts snap rcv = fold_left (fun o c => upd o (a c) (v c)) l rcv).
  { unfold snap2shot, l. rewrite fold_flat_map. apply PropertiesDft.fold_left_ext. intros o r _. rewrite fold_map. rewrite (fold_box (fun o z y x t => upd o (z * nys * nxs * nxr * nts + y * nxs * nxr * nts + x * nxr * nts + r * nts + t) (snap r (t * nys * nxs * dnz + y * nxs * dnz + x * dnz + z)))). apply PropertiesDft.fold_left_ext. intros o' [[[z y] x] t] _. unfold a, v, index4. f_equal; [ring|]. f_equal. ring. }
  assert (Hl : forall r z y x t, In (r, (z, y, x, t)) l <-> 0 <= r < nxr /\ 0 <= z < dnz /\ 0 <= y < nys /\ 0 <= x < nxs /\ 0 <= t < nts).
  { intros r z y x t. unfold l. rewrite in_flat_map. split.
    - intros (r' & Hr' & H). apply in_map_iff in H. destruct H as (q & Eq & H). inversion Eq; subst. apply in_box in H. apply in_range in Hr'. lia.
    - intros H. exists r. split; [apply in_range; lia|]. apply in_map_iff. exists (z, y, x, t). split; [reflexivity|apply in_box; lia]. }
  rewrite E. apply (cells_hit a v l rcv) with (c := (ixr, (iz, iy, ix, it))).
  - intros [r [[[z y] x] t]] [r' [[[z' y'] x'] t']] HJ HK Eq. apply Hl in HJ, HK. unfold a in Eq. apply index_inj in Eq; try lia. destruct Eq as (E1 & -> & -> & ->). destruct (Z.div_mod_unique nys z z' y y') as [-> ->]; [lia|lia|rewrite !(Z.mul_comm nys); exact E1|]. reflexivity.
  - apply Hl. lia.
Qed.
Print Assumptions C97_shots.
(** C97: snap2shot writes nothing behind its array. *)
Theorem C97_shots_frame {V} nxr dnz nys nxs nts (snap : Z -> Z -> V) rcv x : ~ 0 <= x < dnz * nys * nxs * nxr * nts -> snap2shot nxr dnz nys nxs nts snap rcv x = rcv x.
Proof.
  intros Hx. unfold snap2shot. apply (fold_inv_in (fun o : Z -> V => o x = rcv x)); [reflexivity|]. intros o r Hr Ho. rewrite (fold_box (fun o z y x t => upd o (z * nys * nxs * nxr * nts + y * nxs * nxr * nts + x * nxr * nts + r * nts + t) (snap r (t * nys * nxs * dnz + y * nxs * dnz + x * dnz + z)))).
  apply (fold_inv_in (fun o : Z -> V => o x = rcv x)); [exact Ho|]. intros o' [[[z y] ix] t] H Ho'. apply in_box in H. apply in_range in Hr. rewrite upd_eq. destruct (Z.eqb_spec x (z * nys * nxs * nxr * nts + y * nxs * nxr * nts + ix * nxr * nts + r * nts + t)) as [E|E]; [|exact Ho']. exfalso. apply Hx. rewrite E.
  replace (z * nys * nxs * nxr * nts + y * nxs * nxr * nts + ix * nxr * nts + r * nts + t) with (index4 nxs nxr nts (z * nys + y) ix r t) by (unfold index4; ring). apply index_bounds; try lia.
  pose proof (Z.mul_nonneg_nonneg z nys ltac:(lia) ltac:(lia)). pose proof (Z.mul_le_mono_nonneg_r (z + 1) dnz nys ltac:(lia) ltac:(lia)). lia.
Qed.
Print Assumptions C97_shots_frame.
Example C97_nonvacuous : reshape 2 1 1 3 (fun a => a) (fun _ => 0) (index4 1 1 3 1 0 0 2) = 5 /\ read_snap 1 3 1 4 1 3 0 1 2 4 (fun a => a) (fun _ => 0) 3 = 11 /\ snap2shot 2 2 1 2 3 (fun r a => 100 * r + a) (fun _ => 0) (index4 2 2 3 1 1 1 2) = 111.
Proof. repeat split; reflexivity. Qed.
