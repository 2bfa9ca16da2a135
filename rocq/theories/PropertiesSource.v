(** C83, C84: injection of the sources of fdelmodc. *)
From Coq Require Import ZArith Reals List Bool Lia Lra.
From Verif Require Import ListAux FdKernels ReadModel ViscoSpec SourceSpec Source ViscoProofs SourceProofs.
Import ListNotations.
Local Open Scope R_scope.

Lemma interpolated_value : forall w u, w (Int_part u) * (IZR (Int_part u + 1) - u) + w (Int_part u + 1)%Z * (u - IZR (Int_part u)) = interpolated w u.
Proof. intros w u. unfold interpolated, frac_part. rewrite plus_IZR. ring. Qed.
Lemma window_taper : forall s i v, windowed s i v = (if ((1 <? Z.of_nat (s_n s)) && negb (s_window s =? 0))%Z
  then (if (Z.of_nat i <? s_window s)%Z then taper (s_window s) (Z.of_nat i) else taper (s_window s) (Z.of_nat (s_n s) + 1 - Z.of_nat i)) else 1) * v.
Proof.
  intros s i v. unfold windowed. destruct ((1 <? Z.of_nat (s_n s))%Z && negb (s_window s =? 0)%Z); [|ring].
  unfold scl, taper. cbv zeta. set (w := s_window s). set (j := Z.of_nat i). set (n := Z.of_nat (s_n s)).
  destruct (j <? w)%Z eqn:E1.
  - replace (PI / 2 * IZR (w - j) / IZR w) with (/ 2 * PI * IZR (w - j) / IZR w) by (unfold Rdiv; ring). ring.
  - replace (n - w + 1 <? j)%Z with (n + 1 - j <? w)%Z by (destruct (Z.ltb_spec (n + 1 - j) w), (Z.ltb_spec (n - w + 1) j); lia).
    destruct (n + 1 - j <? w)%Z; [|ring]. replace (n - j + 1)%Z with (n + 1 - j)%Z by ring.
    replace (PI / 2 * IZR (w - (n + 1 - j)) / IZR w) with (/ 2 * PI * IZR (w - (n + 1 - j)) / IZR w) by (unfold Rdiv; ring). ring.
Qed.

(** Every source that has begun and not ended, with its column inside the model, adds its pattern to the fields, with the
    strength of its wavelet at that moment; the fields do not change otherwise. *)
Theorem C83_injection nx nz iorder b s t rox roz l2m wav F f x z (act : nat -> bool) :
  let g := layout nx nz iorder b in let n1 := naz g in let n := s_n s in
  let orient := if ((top b =? 1) && (s_type s =? 2) && (t_izsrc t =? 0))%Z then 1%Z else s_orient s in
  let col := column (s_freely s) (s_plane s) n (t_ixsrc t) (s_x s) in
  let row := row (s_freely s) (s_plane s) (t_izsrc t) (s_z s) in
  let cx i := (col i + fst (first_point (s_type s) (iorder / 2)) + layer (lef b) (npml b))%Z in
  let cz i := (row i + snd (first_point (s_type s) (iorder / 2)) + layer (top b) (npml b))%Z in
  let elapsed i := IZR (t_itime t) * t_dt t + t_t0 t - s_tbeg s i in
  let weight i := if ((1 <? Z.of_nat n) && negb (s_window s =? 0))%Z
    then (if (Z.of_nat i <? s_window s)%Z then taper (s_window s) (Z.of_nat i) else taper (s_window s) (Z.of_nat n + 1 - Z.of_nat i)) else 1 in
  let strength i := weight i * interpolated (wav (if s_multiwav s then i else 0%nat)) (elapsed i / t_dt t) in
  let near i (p : Z -> R) : pattern := fun dx dz => p ((cx i + dx) * n1 + (cz i + dz))%Z in
  let medium i := mkMedium (near i rox) (near i roz) (near i l2m) in
  (4 <= iorder)%Z -> (0 <= npml b)%Z -> 0 < t_dt t -> t_dx t <> 0 -> (0 <= z < n1)%Z ->
  (forall i, (i < n)%nat -> act i = true <->
     0 <= elapsed i /\ IZR (t_itime t) * t_dt t + t_t0 t < s_tend s i /\ (Int_part (elapsed i / t_dt t) + 1 <= t_nt t)%Z /\ (0 <= col i <= nx)%Z) ->
  (forall i, (i < n)%nat -> act i = true -> (0 <= row i < nz)%Z /\ near i l2m 0%Z 0%Z <> 0 /\ (s_type s = 13 -> 2 <= cz i)%Z) ->
  applySource g b s t rox roz l2m wav F f (x * n1 + z)%Z = F f (x * n1 + z)%Z +
  upto n (fun i => if act i then strength i *
     injected (2 <? t_ischeme t)%Z (s_type s) orient ((top b =? 1) && (row i =? 0))%Z (0 <? row i)%Z (row i <? nz - 1)%Z
       (t_dx t) (t_dt t) (medium i) (mkMoments (s_Mxx s) (s_Mzz s) (s_Mxz s) (s_wx s) (s_wz s)) f (x - cx i)%Z (z - cz i)%Z else 0).
Proof.
  intros g n1 n ori col row0 cx cz elapsed weight strength near medium Hio Hnp Hdt Hdx Hz Ha Hin.
  assert (Hh : (2 <= iorder / 2)%Z) by (apply Z.div_le_lower_bound; lia).
  assert (Hh2 : (2 * (iorder / 2) <= iorder)%Z) by (apply Z.mul_div_le; lia).
  assert (Bx : ibndx g b s = (fst (first_point (s_type s) (iorder / 2)) + layer (lef b) (npml b))%Z).
  { unfold ibndx, g, first_point. cbn [layout ioXx ioZx ioTx ioPx]. unfold pad, absorbing, layer.
    destruct (s_type s) as [|p|p]; [ | do 3 (try destruct p) | ]; cbn [Z.eqb Pos.eqb fst]; destruct ((lef b =? 4)%Z || (lef b =? 2)%Z); lia. }
  assert (Bz : ibndz g b s = (snd (first_point (s_type s) (iorder / 2)) + layer (top b) (npml b))%Z).
  { unfold ibndz, g, first_point. cbn [layout ioXz ioZz ioTz ioPz]. unfold pad, absorbing, layer.
    destruct (s_type s) as [|p|p]; [ | do 3 (try destruct p) | ]; cbn [Z.eqb Pos.eqb snd]; destruct ((top b =? 4)%Z || (top b =? 2)%Z); lia. }
  assert (FP : (iorder / 2 - 1 <= snd (first_point (s_type s) (iorder / 2)) <= iorder / 2)%Z
     /\ (s_type s = 8 -> snd (first_point (s_type s) (iorder / 2)) = iorder / 2 - 1)%Z).
  { split; [|intros ->; reflexivity]. unfold first_point. destruct (s_type s) as [|p|p]; [ | do 3 (try destruct p) | ]; cbn [snd]; lia. }
  assert (Lt : (0 <= layer (top b) (npml b))%Z) by (unfold layer; destruct ((top b =? 4)%Z || (top b =? 2)%Z); lia).
  assert (N1 : (nz + 2 * (iorder / 2) + layer (top b) (npml b) <= n1)%Z).
  { unfold n1, g. cbn [layout naz]. unfold pad, absorbing, layer. destruct ((top b =? 4)%Z || (top b =? 2)%Z), ((bot b =? 4)%Z || (bot b =? 2)%Z); lia. }
  unfold applySource. rewrite apply_shares, shares_sources. f_equal. fold n. apply upto_ext. intros i Hi.
  assert (P : position g b s t i = (cx i, cz i)).
  { unfold position, cx, cz, col, row0, column, SourceSpec.row. rewrite Bx, Bz. unfold is0. fold n. destruct (s_freely s); [f_equal; ring|]. destruct (s_plane s); f_equal; ring. }
  assert (T : time s t i = elapsed i) by (unfold time, elapsed; ring).
  assert (A : passes s t i && negb (outside g b s t i) = act i).
  { apply eq_true_iff_eq. rewrite (Ha i Hi). unfold passes, outside, id2, id1. rewrite P, T, Bx. cbn [fst].
    replace (cx i - (fst (first_point (s_type s) (iorder / 2)) + layer (lef b) (npml b)))%Z with (col i) by (unfold cx; ring).
    rewrite andb_true_iff, !negb_true_iff, !orb_false_iff, !Z.ltb_ge. change (FdKernels.nx g) with nx.
    destruct (Rlt_dec (elapsed i) 0) as [L|L], (Rle_dec (s_tend s i) (IZR (t_itime t) * t_dt t + t_t0 t)) as [M|M]; split; intros H; conjs; try discriminate; try lra; try lia; repeat split; try assumption; try lia; lra. }
  unfold one_source. rewrite A. destruct (act i) eqn:Ei; [|reflexivity]. rewrite P.
  destruct (Hin i Hi Ei) as (Hr & Hl & H13).
  assert (AM : ampl g b s t l2m wav i = strength i * (1 / t_dx t * l2m (cx i * n1 + cz i)%Z)).
  { unfold ampl. rewrite P. fold n1. rewrite window_taper. unfold strength, weight. fold n. f_equal. f_equal.
    unfold value, wavelet, id2, id1. rewrite T. apply interpolated_value. }
  rewrite AM. pose proof (one_shares g b s t rox roz l2m (cx i) (cz i) x z (strength i)) as S. cbv zeta in S.
  assert (O : Source.orient g b s t = ori).
  { unfold Source.orient, ori. replace (t_izsrc t + ibndz g b s =? ibndz g b s)%Z with (t_izsrc t =? 0)%Z; [reflexivity|].
    destruct (Z.eqb_spec (t_izsrc t) 0), (Z.eqb_spec (t_izsrc t + ibndz g b s) (ibndz g b s)); lia. }
  rewrite S; clear S.
  - rewrite O. replace (negb (t_ischeme t <=? 2)%Z) with (2 <? t_ischeme t)%Z by (symmetry; rewrite Z.ltb_antisym; reflexivity).
    rewrite Bz.
    replace (cz i =? snd (first_point (s_type s) (iorder / 2)) + layer (top b) (npml b))%Z with (row0 i =? 0)%Z
      by (unfold cz; set (R := row0 i) in *; set (L := layer _ _); set (S := snd _); destruct (Z.eqb_spec R 0), (Z.eqb_spec (R + S + L) (S + L)); lia).
    replace (snd (first_point (s_type s) (iorder / 2)) + layer (top b) (npml b) <? cz i)%Z with (0 <? row0 i)%Z
      by (unfold cz; set (R := row0 i) in *; set (L := layer _ _); set (S := snd _); destruct (Z.ltb_spec 0 R), (Z.ltb_spec (S + L) (R + S + L)); lia).
    change (FdKernels.nz g) with nz.
    replace (cz i <? nz + (snd (first_point (s_type s) (iorder / 2)) + layer (top b) (npml b)) - 1)%Z with (row0 i <? nz - 1)%Z
      by (unfold cz; set (R := row0 i) in *; set (L := layer _ _); set (S := snd _); destruct (Z.ltb_spec R (nz - 1)), (Z.ltb_spec (R + S + L) (nz + (S + L) - 1)); lia).
    rewrite (andb_comm (row0 i =? 0)%Z). reflexivity.
  - exact Hz.
  - unfold cz. lia.
  - unfold cz. fold n1. lia.
  - exact H13.
  - intros E8. fold n1. unfold cz. rewrite (proj2 FP E8). lia.
  - fold n1. unfold near in Hl. now rewrite !Z.add_0_r in Hl.
  - exact Hdx.
  - lra.
Qed.
Print Assumptions C83_injection.

(** The sources of a point source or a plane wave use samples of the wavelet only. *)
Theorem C83_wavelet_in_bounds s t i w j : 0 < t_dt t -> (forall i, s_tend s i = s_tbeg s i + IZR (t_nt t - 1) * t_dt t) ->
  In (w, j) (samples s t i) -> (0 <= j < t_nt t)%Z /\ w = (if s_multiwav s then i else 0%nat).
Proof.
  intros Hdt He. unfold samples. destruct (passes s t i) eqn:P; [|intros []].
  assert (Q : (0 <= id1 s t i /\ id1 s t i + 1 < t_nt t)%Z).
  { unfold passes in P. apply negb_true_iff, orb_false_iff in P as [P _]. apply orb_false_iff in P as [P1 P2].
    destruct (Rlt_dec (time s t i) 0) as [|L]; [discriminate|]. destruct (Rle_dec _ _) as [|M] in P2; [discriminate|]. rewrite He in M.
    assert (T : IZR (t_itime t) * t_dt t + t_t0 t = time s t i + s_tbeg s i) by (unfold time; ring). rewrite T in M.
    set (u := time s t i / t_dt t). assert (U : time s t i = u * t_dt t) by (unfold u; field; lra).
    assert (U0 : 0 <= u) by (apply Rmult_le_reg_r with (t_dt t); lra).
    assert (U1 : u < IZR (t_nt t - 1)) by (apply Rmult_lt_reg_r with (t_dt t); lra).
    destruct (base_Int_part u) as [B1 B2]. unfold id1. fold u. split.
    - apply Z.lt_succ_r. apply lt_IZR. unfold Z.succ. rewrite plus_IZR. lra.
    - enough (Int_part u < t_nt t - 1)%Z by lia. apply lt_IZR. lra. }
  intros [E|[E|[]]]; apply pair_equal_spec in E as [<- <-]; unfold id2, wavelet; (split; [lia|reflexivity]).
Qed.
Print Assumptions C83_wavelet_in_bounds.

Lemma Int_part_is : forall r n, IZR n <= r < IZR n + 1 -> Int_part r = n.
Proof. intros r n H. unfold Int_part. rewrite <- (tech_up r (n + 1)); rewrite ?plus_IZR; try lra. lia. Qed.
(** ... but those of random signals can use the sample after the last one: a signal of 2.4 s with time step 1 has 3 samples,
    and one that begins at 0.7 s uses sample number 3 in step 3, at 2.3 s. *)
Theorem C83_random_signal_refuted : exists s t i w j, t_dt t = 1 /\ s_n s = 1%nat /\ t_t0 t = 0 /\ s_multiwav s = true /\
  s_tend s 0%nat = random_tend (s_tbeg s 0%nat) (24 / 10) 100 /\ t_nt t = random_nsamp (s_tbeg s 0%nat) (s_tend s 0%nat) (t_dt t) /\
  In (w, j) (samples s t i) /\ j = t_nt t.
Proof.
  set (tb := 7 / 10). set (te := random_tend tb (24 / 10) 100).
  assert (Ete : te = 31 / 10) by (unfold te, random_tend, tb; rewrite Rmin_left; lra).
  assert (En : random_nsamp tb te 1 = 3%Z).
  { unfold random_nsamp. rewrite Ete. unfold tb. rewrite (Int_part_is _ 2) by lra. reflexivity. }
  exists (mkSrc 1 1 1 true true false 0 (fun _ => 0%Z) (fun _ => 0%Z) (fun _ => tb) (fun _ => te) 0 0 0 0 0), (mkStep 3 1 0 1 3 1 0 0), 0%nat, 0%nat, 3%Z.
  cbn [t_dt s_n t_t0 s_multiwav s_tend s_tbeg t_nt]. rewrite En. repeat split; try reflexivity.
  unfold samples.
  assert (T : forall s, s_tbeg s 0%nat = tb -> time s (mkStep 3 1 0 1 3 1 0 0) 0 = 23 / 10).
  { intros s E. unfold time. rewrite E. cbn [t_itime t_dt t_t0]. unfold tb. lra. }
  assert (D : forall s, s_tbeg s 0%nat = tb -> id1 s (mkStep 3 1 0 1 3 1 0 0) 0 = 2%Z).
  { intros s E. unfold id1. rewrite (T s E). cbn [t_dt]. apply Int_part_is. lra. }
  unfold passes, wavelet, id2. rewrite T, D by reflexivity. cbn [t_itime t_dt t_t0 t_nt s_tend s_multiwav]. rewrite Ete.
  destruct (Rlt_dec _ _); [lra|]. destruct (Rle_dec _ _); [lra|]. cbn. tauto.
Qed.
Print Assumptions C83_random_signal_refuted.

(** A plane wave: the sources are placed around the shot, each one begins dx*p after its left neighbour, the one at the shot
    begins at time 0 of the recording (t0 before the first step); no source has begun before the first step. *)
Theorem C83_plane n dx p nt dt s t i : (0 < n)%nat -> (i < n)%nat -> 0 < dx -> t_dx t = dx -> t_dt t = dt -> t_nt t = nt ->
  s_tbeg s = plane_tbeg n dx p -> s_tend s = plane_tend n dx p nt dt -> t_t0 t = plane_t0 n dx p ->
  let mid := ((n - 1) / 2)%nat in
  plane_x n i = (Z.of_nat i - Z.of_nat mid)%Z /\ time s t mid = IZR (t_itime t) * dt + t_t0 t /\
  time s t i = time s t mid - IZR (plane_x n i) * (dx * p) /\ (t_itime t = 0%Z -> time s t i <= 0) /\
  s_tend s i - s_tbeg s i = IZR (nt - 1) * dt.
Proof.
  intros Hn Hi Hdx Ex Ed En Eb Ee E0 mid.
  assert (Emid : ((Z.of_nat n - 1) / 2)%Z = Z.of_nat mid).
  { unfold mid. replace (Z.of_nat n - 1)%Z with (Z.of_nat (n - 1)) by lia. now rewrite Nat2Z.inj_div. }
  assert (Hmid : (2 * mid <= n - 1)%nat) by (unfold mid; apply Nat.mul_div_le; lia).
  assert (Is : plane_is0 n = (- Z.of_nat mid)%Z) by (unfold plane_is0; rewrite Emid; ring).
  assert (X : plane_x n i = (Z.of_nat i - Z.of_nat mid)%Z) by (unfold plane_x; rewrite Is; ring).
  assert (TB : forall k, plane_tbeg n dx p k = IZR (Z.of_nat k - Z.of_nat mid) * dx * p).
  { intros k. unfold plane_tbeg. rewrite Is. f_equal. }
  conjs.
  - exact X.
  - unfold time. rewrite Eb, Ed, TB, Z.sub_diag. ring.
  - unfold time. rewrite Eb, Ed, X, !TB, Z.sub_diag. ring.
  - intros Z0. unfold time. rewrite Z0, Eb, E0, TB. unfold plane_t0. rewrite Is.
    assert (I1 : 0 <= IZR (Z.of_nat i)) by (apply IZR_le; lia). assert (I2 : IZR (Z.of_nat i) <= IZR (Z.of_nat n)) by (apply IZR_le; lia).
    rewrite minus_IZR, plus_IZR, opp_IZR. set (I := IZR (Z.of_nat i)) in *. set (N := IZR (Z.of_nat n)) in *. set (M := IZR (Z.of_nat mid)).
    destruct (Rle_dec 0 p) as [Hp|Hp].
    + apply Rle_trans with (- M * dx * p - (I - M) * dx * p); [pose proof (Rmin_l (- M * dx * p) ((N + - M) * dx * p)); lra|].
      assert (0 <= I * (dx * p)) by (apply Rmult_le_pos; [exact I1|apply Rmult_le_pos; lra]). lra.
    + apply Rle_trans with ((N + - M) * dx * p - (I - M) * dx * p); [pose proof (Rmin_r (- M * dx * p) ((N + - M) * dx * p)); lra|].
      assert (0 <= (N - I) * (dx * - p)) by (apply Rmult_le_pos; [lra|apply Rmult_le_pos; lra]). lra.
  - rewrite Ee, Eb. unfold plane_tend. ring.
Qed.
Print Assumptions C83_plane.

(** The window is not symmetric: it removes the first source of an array, and leaves the last one at the weight of the third. *)
Theorem C83_window_refuted s v : (2 < s_window s)%Z -> (2 * s_window s < Z.of_nat (s_n s))%Z ->
  windowed s 0 v = 0 /\ windowed s (s_n s - 1) v = windowed s 2 v /\ (v <> 0 -> windowed s (s_n s - 1) v <> windowed s 0 v).
Proof.
  intros Hw Hn. rewrite !window_taper. set (w := s_window s) in *. set (n := s_n s) in *.
  replace (1 <? Z.of_nat n)%Z with true by (symmetry; apply Z.ltb_lt; lia). replace (w =? 0)%Z with false by (symmetry; apply Z.eqb_neq; lia). cbn [negb andb].
  replace (Z.of_nat 0 <? w)%Z with true by (symmetry; apply Z.ltb_lt; lia). replace (Z.of_nat 2 <? w)%Z with true by (symmetry; apply Z.ltb_lt; lia).
  replace (Z.of_nat (n - 1) <? w)%Z with false by (symmetry; apply Z.ltb_ge; lia). replace (Z.of_nat n + 1 - Z.of_nat (n - 1))%Z with 2%Z by lia. change (Z.of_nat 2) with 2%Z. change (Z.of_nat 0) with 0%Z.
  assert (W : 2 < IZR w) by (apply IZR_lt; lia). assert (T0 : taper w 0 = 0).
  { unfold taper. replace (0 <? w)%Z with true by (symmetry; apply Z.ltb_lt; lia). rewrite Z.sub_0_r. replace (PI / 2 * IZR w / IZR w) with (PI / 2) by (field; lra). rewrite cos_PI2. ring. }
  assert (T2 : 0 < taper w 2).
  { unfold taper. replace (2 <? w)%Z with true by (symmetry; apply Z.ltb_lt; lia). apply pow_lt. rewrite minus_IZR. pose proof PI_RGT_0.
    assert (Q : 0 < (IZR w - 2) / IZR w < 1).
    { split; [apply Rdiv_lt_0_compat; lra|]. apply Rmult_lt_reg_r with (IZR w); [lra|]. unfold Rdiv. rewrite Rmult_assoc, Rinv_l by lra. lra. }
    apply cos_gt_0; replace (PI / 2 * (IZR w - 2) / IZR w) with (PI / 2 * ((IZR w - 2) / IZR w)) by (unfold Rdiv; ring).
    - pose proof (Rmult_lt_0_compat (PI / 2) ((IZR w - 2) / IZR w) ltac:(lra) (proj1 Q)). lra.
    - replace (PI / 2) with (PI / 2 * 1) at 2 by ring. apply Rmult_lt_compat_l; lra. }
  rewrite T0. repeat split; [ring|]. intros Hv E. rewrite Rmult_0_l in E. apply Rmult_integral in E as [E|E]; [lra|contradiction].
Qed.
Print Assumptions C83_window_refuted.

(** A horizontal force adds half of what a vertical force of the same strength adds. *)
Theorem C83_forces_refuted g s6 s7 t r l2m ix iz a : s_type s6 = 6%Z -> s_type s7 = 7%Z ->
  exists v, forces g s6 t r r l2m ix iz a = [(Avx, (ix * naz g + iz)%Z, v / 2)] /\ forces g s7 t r r l2m ix iz a = [(Avz, (ix * naz g + iz)%Z, v)].
Proof.
  intros E6 E7. unfold forces. rewrite E6, E7. cbn [Z.eqb Pos.eqb]. exists (a * r (ix * naz g + iz)%Z / l2m (ix * naz g + iz)%Z). split; [|reflexivity].
  do 2 f_equal. unfold Rdiv. ring.
Qed.
Print Assumptions C83_forces_refuted.

(** a pressure source *)
Definition src1 (x : Z) : src := mkSrc 1 1 1 true false false 0 (fun _ => x) (fun _ => 1%Z) (fun _ => 0) (fun _ => 10) 0 0 0 0 0.
Definition step1 : step := mkStep 2 1 0 1 11 1 0 0.
Definition none4 : bnd := mk_bnd 3 3 3 3 0.
Lemma src1_adds : forall x F, (0 <= x <= 5)%Z ->
  let g := layout 5 4 4 none4 in
  applySource g none4 (src1 x) step1 (fun _ => 1) (fun _ => 1) (fun _ => 1) (fun _ j => IZR j) F Atzz ((x + 1) * naz g + 2)%Z = F Atzz ((x + 1) * naz g + 2)%Z + 2.
Proof.
  intros x F Hx g. unfold g. rewrite (C83_injection 5 4 4 none4 (src1 x) step1 (fun _ => 1) (fun _ => 1) (fun _ => 1) (fun _ j => IZR j) F Atzz (x + 1) 2 (fun _ => true)).
  - f_equal. cbn -[interpolated Z.add Z.sub]. assert (I : interpolated (fun j => IZR j) ((2 * 1 + 0 - 0) / 1) = 2).
    { unfold interpolated, frac_part. rewrite (Int_part_is _ 2) by lra. cbn [Z.add Pos.add Pos.succ]. lra. }
    rewrite I. unfold times, unit_at. change (4 / 2 - 1)%Z with 1%Z. replace (x + 1 - (x + 1 + 0))%Z with 0%Z by ring. cbn. field.
  - lia.
  - cbn. lia.
  - cbn. lra.
  - cbn. lra.
  - cbn. lia.
  - intros i _. cbn -[Int_part]. split; [intros _|reflexivity]. rewrite (Int_part_is _ 2) by lra. unfold column. cbn. repeat split; try lra; lia.
  - intros i _ _. cbn. repeat split; try lra; try lia.
Qed.
(** A source just outside of the model is not left out: the columns are 0 to nx-1, and a source in column nx is added. *)
Theorem C83_outside_refuted : exists nx nz b s t l2m wav F j, (forall i, s_x s i = nx) /\ s_freely s = true /\ s_n s = 1%nat /\
  applySource (layout nx nz 4 b) b s t (fun _ => 1) (fun _ => 1) l2m wav F Atzz j <> F Atzz j.
Proof.
  exists 5%Z, 4%Z, none4, (src1 5), step1, (fun _ => 1), (fun _ j => IZR j), (fun _ _ => 0), ((5 + 1) * naz (layout 5 4 4 none4) + 2)%Z.
  do 3 (split; [reflexivity|]). rewrite src1_adds by lia. lra.
Qed.
Print Assumptions C83_outside_refuted.

(** The rotation source of fourth order at the top of a model without absorbing layer writes into another column: the point
    two rows above the first row is outside of the arrays, and its address is that of the last row of the column to the left. *)
Theorem C83_rotation_at_top_refuted nx nz s t rox l2m ix a : (0 < nz)%Z -> s_type s = 13%Z ->
  let g := layout nx nz 4 none4 in let iz := ibndz g none4 s in
  In (Avx, ((ix - 1) * naz g + (naz g - 1))%Z, - (c2 * (a * rox (ix * naz g + iz)%Z / l2m (ix * naz g + iz)%Z * (1 / t_dx t)))) (s_zibi g t rox l2m ix iz a).
Proof.
  intros Hz E g iz. unfold s_zibi. cbv zeta. do 3 right. left. f_equal. f_equal. unfold iz, ibndz. rewrite E. cbn [Z.eqb Pos.eqb]. unfold g. cbn. lia.
Qed.
Print Assumptions C83_rotation_at_top_refuted.

(** the hypotheses of C83_injection hold for a source of the model, and it is active *)
Example C83_nonvacuous : forall F, let g := layout 5 4 4 none4 in
  applySource g none4 (src1 3) step1 (fun _ => 1) (fun _ => 1) (fun _ => 1) (fun _ j => IZR j) F Atzz (4 * naz g + 2)%Z = F Atzz (4 * naz g + 2)%Z + 2.
Proof. intros F. exact (src1_adds 3 F ltac:(lia)). Qed.

(** the sources are in the rows of the model, at points with non-zero stiffness *)
Definition in_model (nx nz iorder : Z) (b : bnd) (s : src) (t : step) (l2m : Z -> R) : Prop :=
  (4 <= iorder)%Z /\ (0 <= npml b)%Z /\ 0 < t_dt t /\ t_dx t <> 0 /\ forall i, (i < s_n s)%nat ->
  let x := (column (s_freely s) (s_plane s) (s_n s) (t_ixsrc t) (s_x s) i + fst (first_point (s_type s) (iorder / 2)) + layer (lef b) (npml b))%Z in
  let r := row (s_freely s) (s_plane s) (t_izsrc t) (s_z s) i in
  let z := (r + snd (first_point (s_type s) (iorder / 2)) + layer (top b) (npml b))%Z in
  (0 <= r < nz)%Z /\ l2m (x * naz (layout nx nz iorder b) + z)%Z <> 0 /\ (s_type s = 13 -> 2 <= z)%Z.
(** a field as a function of the point *)
Definition on_grid (n1 : Z) (G : arrays) (f : array) : pattern := fun x z => G f (x * n1 + z)%Z.

(** what is added is a sum of multiples of one pattern per source *)
Lemma added nx nz iorder b s t rox roz l2m wav : in_model nx nz iorder b s t l2m ->
  let g := layout nx nz iorder b in let n1 := naz g in
  exists (c : nat -> R) (cx cz : nat -> Z) (ori : Z) (sf ab be : nat -> bool) (m : nat -> medium) (o : moments), forall F f x z, (0 <= z < n1)%Z ->
  on_grid n1 (applySource g b s t rox roz l2m wav F) f x z = on_grid n1 F f x z +
  upto (s_n s) (fun i => c i * injected (2 <? t_ischeme t)%Z (s_type s) ori (sf i) (ab i) (be i) (t_dx t) (t_dt t) (m i) o f (x - cx i)%Z (z - cz i)%Z).
Proof.
  intros (H1 & H2 & H3 & H4 & H5) g n1.
  set (col := column (s_freely s) (s_plane s) (s_n s) (t_ixsrc t) (s_x s)).
  set (elapsed := fun i => IZR (t_itime t) * t_dt t + t_t0 t - s_tbeg s i).
  set (act := fun i => (if Rle_dec 0 (elapsed i) then true else false) && (if Rlt_dec (IZR (t_itime t) * t_dt t + t_t0 t) (s_tend s i) then true else false)
    && (Int_part (elapsed i / t_dt t) + 1 <=? t_nt t)%Z && (0 <=? col i)%Z && (col i <=? nx)%Z).
  eexists (fun i => if act i then _ else 0), _, _, _, _, _, _, _, _. intros F f x z Hz. unfold on_grid.
  unfold g, n1, g in *. rewrite (C83_injection nx nz iorder b s t rox roz l2m wav F f x z act H1 H2 H3 H4 Hz).
  - f_equal. apply upto_ext. intros i Hi.
    match goal with |- (if act i then ?w * ?J else 0) = _ => transitivity ((if act i then w else 0) * J); [destruct (act i); ring|] end.
    pattern i. reflexivity.
  - intros i Hi. unfold act. fold col. rewrite !andb_true_iff, !Z.leb_le. unfold elapsed.
    destruct (Rle_dec _ _) as [L|L], (Rlt_dec _ _) as [M|M]; (split; [intros [[[[Q1 Q2] Q3] Q4] Q5] | intros (Q1 & Q2 & Q3 & Q4 & Q5)]); repeat split; try discriminate; try contradiction; try assumption.
  - intros i Hi Ei. specialize (H5 i Hi). cbv zeta in H5. rewrite !Z.add_0_r. exact H5.
Qed.
Print Assumptions added.

Lemma upto_zero4 : forall n A B C D, (forall i, (i < n)%nat -> A i - B i + (C i - D i) = 0) ->
  upto n A - upto n B + (upto n C - upto n D) = 0.
Proof.
  induction n as [|n IH]; intros A B C D H; cbn [upto]; [ring|].
  pose proof (IH A B C D (fun i Hi => H i (Nat.lt_lt_succ_r _ _ Hi))). pose proof (H n (Nat.lt_succ_diag_r n)). lra.
Qed.
Lemma upto_zero8 : forall n A B C D A' B' C' D',
  (forall i, (i < n)%nat -> 9 / 8 * (A i - B i) - 1 / 24 * (A' i - B' i) + (9 / 8 * (C i - D i) - 1 / 24 * (C' i - D' i)) = 0) ->
  9 / 8 * (upto n A - upto n B) - 1 / 24 * (upto n A' - upto n B') + (9 / 8 * (upto n C - upto n D) - 1 / 24 * (upto n C' - upto n D')) = 0.
Proof.
  induction n as [|n IH]; intros A B C D A' B' C' D' H; cbn [upto]; [ring|].
  pose proof (IH A B C D A' B' C' D' (fun i Hi => H i (Nat.lt_lt_succ_r _ _ Hi))). pose proof (H n (Nat.lt_succ_diag_r n)). lra.
Qed.
Lemma unit_moved : forall i k di dk x z, unit_at i k (x + di)%Z (z + dk)%Z = unit_at (i - di) (k - dk) x z.
Proof. intros. replace (x + di)%Z with (x - - di)%Z by ring. replace (z + dk)%Z with (z - - dk)%Z by ring. apply unit_shift. Qed.
Lemma unit_moved_x : forall i k di x z, unit_at i k (x + di)%Z z = unit_at (i - di) k x z.
Proof. intros. replace z with (z + 0)%Z at 1 by ring. rewrite unit_moved. f_equal. ring. Qed.
Lemma unit_moved_z : forall i k dk x z, unit_at i k x (z + dk)%Z = unit_at i (k - dk) x z.
Proof. intros. replace x with (x + 0)%Z at 1 by ring. rewrite unit_moved. f_equal. ring. Qed.
Ltac unitz := unfold divergence, divergence4, rotation, dxf, dzf, dxb, dzb, dxf4, dzf4, plus, minus, times, shifted, none; cbv beta;
  unfold Z.sub; rewrite ?unit_moved, ?unit_moved_x, ?unit_moved_z; cbn [Z.sub Z.add Z.opp Pos.add Z.pos_sub Pos.pred_double Pos.succ]; try field; try ring.
Lemma around_div : forall ori x z, divergence (dipole ori (fst around)) (dipole ori (snd around)) x z = 0.
Proof. intros ori x z. destruct ori as [|q|q]; [ | do 2 (try destruct q) | ]; cbn [dipole around fst snd]; unitz. Qed.
Lemma outwards_rot : forall ori x z, rotation (dipole ori (fst outwards)) (dipole ori (snd outwards)) x z = 0.
Proof. intros ori x z. destruct ori as [|q|q]; [ | do 2 (try destruct q) | ]; cbn [dipole outwards fst snd]; unitz. Qed.
Lemma around4_div : forall x z, divergence4 (fst around4) (snd around4) x z = 0.
Proof. intros x z. cbn [around4 fst snd]; unitz. Qed.

(** The shear potential sources do not change the divergence of the velocities in differences of second order, and the
    compressional potential sources do not change the rotation. *)
Theorem C84_shear_potential nx nz iorder b s t rox roz l2m wav F x z :
  let g := layout nx nz iorder b in let n1 := naz g in let G := applySource g b s t rox roz l2m wav F in
  in_model nx nz iorder b s t l2m -> s_type s = 5%Z -> (2 < t_ischeme t)%Z -> (0 <= z)%Z -> (z + 1 < n1)%Z ->
  divergence (on_grid n1 G Avx) (on_grid n1 G Avz) x z = divergence (on_grid n1 F Avx) (on_grid n1 F Avz) x z.
Proof.
  intros g n1 G Hm Ht Hs Hz Hz1. destruct (added nx nz iorder b s t rox roz l2m wav Hm) as (c & cx & cz & ori & sf & ab & be & m & o & E).
  fold g n1 in E. unfold divergence, plus, dxf, dzf, G. rewrite !E by lia. rewrite Ht. rewrite (proj2 (Z.ltb_lt 2 (t_ischeme t)) Hs).
  match goal with |- _ + ?A - (_ + ?B) + (_ + ?C - (_ + ?D)) = _ => enough (Q : A - B + (C - D) = 0) by lra end.
  apply upto_zero4. intros i _. pose proof (around_div ori (x - cx i) (z - cz i)) as Q. unfold divergence, plus, dxf, dzf in Q. cbn [injected]. unfold times.
  replace (x + 1 - cx i)%Z with (x - cx i + 1)%Z by ring. replace (z + 1 - cz i)%Z with (z - cz i + 1)%Z by ring.
  match type of Q with ?a - ?b + (?p - ?q) = 0 => transitivity (c i * (bx (m i) 0%Z 0%Z / t_dx t ^ 2) * (a - b + (p - q))); [ring | rewrite Q; ring] end.
Qed.
Print Assumptions C84_shear_potential.

Theorem C84_compressional_potential nx nz iorder b s t rox roz l2m wav F x z :
  let g := layout nx nz iorder b in let n1 := naz g in let G := applySource g b s t rox roz l2m wav F in
  in_model nx nz iorder b s t l2m -> s_type s = 8%Z -> (2 < t_ischeme t)%Z -> (1 <= z < n1)%Z ->
  rotation (on_grid n1 G Avx) (on_grid n1 G Avz) x z = rotation (on_grid n1 F Avx) (on_grid n1 F Avz) x z.
Proof.
  intros g n1 G Hm Ht Hs Hz. destruct (added nx nz iorder b s t rox roz l2m wav Hm) as (c & cx & cz & ori & sf & ab & be & m & o & E).
  fold g n1 in E. unfold rotation, minus, dxb, dzb, G. rewrite !E by lia. rewrite Ht. rewrite (proj2 (Z.ltb_lt 2 (t_ischeme t)) Hs).
  match goal with |- _ + ?A - (_ + ?B) - (_ + ?C - (_ + ?D)) = _ => enough (Q : A - B + (D - C) = 0) by lra end.
  apply upto_zero4. intros i _. pose proof (outwards_rot ori (x - cx i) (z - cz i)) as Q. unfold rotation, minus, dxb, dzb in Q. cbn [injected]. unfold times.
  replace (x - 1 - cx i)%Z with (x - cx i - 1)%Z by ring. replace (z - 1 - cz i)%Z with (z - cz i - 1)%Z by ring.
  match type of Q with ?a - ?b - (?p - ?q) = 0 => transitivity (c i * (bx (m i) 0%Z 0%Z / t_dx t ^ 2) * (a - b - (p - q))); [ring | rewrite Q; ring] end.
Qed.
Print Assumptions C84_compressional_potential.

(** The shear source of type 13 does not change the divergence in the differences of fourth order, which the scheme uses. *)
Theorem C84_shear_fourth_order nx nz iorder b s t rox roz l2m wav F x z :
  let g := layout nx nz iorder b in let n1 := naz g in let G := applySource g b s t rox roz l2m wav F in
  in_model nx nz iorder b s t l2m -> s_type s = 13%Z -> (2 < t_ischeme t)%Z -> (1 <= z)%Z -> (z + 2 < n1)%Z ->
  divergence4 (on_grid n1 G Avx) (on_grid n1 G Avz) x z = divergence4 (on_grid n1 F Avx) (on_grid n1 F Avz) x z.
Proof.
  intros g n1 G Hm Ht Hs Hz Hz1. destruct (added nx nz iorder b s t rox roz l2m wav Hm) as (c & cx & cz & ori & sf & ab & be & m & o & E).
  fold g n1 in E. unfold divergence4, plus, dxf4, dzf4, G. rewrite !E by lia. rewrite Ht. rewrite (proj2 (Z.ltb_lt 2 (t_ischeme t)) Hs).
  match goal with |- 9 / 8 * (_ + ?A - (_ + ?B)) - 1 / 24 * (_ + ?A' - (_ + ?B')) + (9 / 8 * (_ + ?C - (_ + ?D)) - 1 / 24 * (_ + ?C' - (_ + ?D'))) = _ =>
    enough (Q : 9 / 8 * (A - B) - 1 / 24 * (A' - B') + (9 / 8 * (C - D) - 1 / 24 * (C' - D')) = 0) by lra end.
  apply upto_zero8. intros i _. pose proof (around4_div (x - cx i) (z - cz i)) as Q. unfold divergence4, plus, dxf4, dzf4 in Q. cbn [injected].
  replace (x + 1 - cx i)%Z with (x - cx i + 1)%Z by ring. replace (z + 1 - cz i)%Z with (z - cz i + 1)%Z by ring.
  replace (x + 2 - cx i)%Z with (x - cx i + 2)%Z by ring. replace (z + 2 - cz i)%Z with (z - cz i + 2)%Z by ring.
  replace (x - 1 - cx i)%Z with (x - cx i - 1)%Z by ring. replace (z - 1 - cz i)%Z with (z - cz i - 1)%Z by ring.
  generalize dependent (fst around4). generalize dependent (snd around4). intros p q Q. unfold times.
  match type of Q with ?L = 0 => transitivity (c i * (bx (m i) 0%Z 0%Z / t_dx t ^ 2) * L); [ring | rewrite Q; ring] end.
Qed.
Print Assumptions C84_shear_fourth_order.

(** The one of type 5 does: there is a divergence of 1/24 of its strength beside the source. *)
Definition src5 : src := mkSrc 1 5 1 true false false 0 (fun _ => 2%Z) (fun _ => 1%Z) (fun _ => 0) (fun _ => 10) 0 0 0 0 0.
Definition step5 : step := mkStep 2 1 0 1 11 3 0 0.
Lemma src5_in_model : in_model 5 4 4 none4 src5 step5 (fun _ => 1).
Proof. unfold in_model. cbn. repeat split; try lra; try lia; intros; try lia; try lra; discriminate. Qed.
Theorem C84_shear_order_refuted : exists nx nz b s t l2m wav x z, in_model nx nz 4 b s t l2m /\ s_type s = 5%Z /\ (2 < t_ischeme t)%Z /\
  let g := layout nx nz 4 b in let n1 := naz g in let G := applySource g b s t (fun _ => 1) (fun _ => 1) l2m wav (fun _ _ => 0) in
  divergence4 (on_grid n1 G Avx) (on_grid n1 G Avz) x z = 1 / 12.
Proof.
  exists 5%Z, 4%Z, none4, src5, step5, (fun _ => 1), (fun _ j => IZR j), 4%Z, 2%Z. split; [exact src5_in_model|]. do 2 (split; [reflexivity|]). cbv zeta.
  assert (V : forall f x z, (0 <= z < naz (layout 5 4 4 none4))%Z -> 
    on_grid (naz (layout 5 4 4 none4)) (applySource (layout 5 4 4 none4) none4 src5 step5 (fun _ => 1) (fun _ => 1) (fun _ => 1) (fun _ j => IZR j) (fun _ _ => 0)) f x z
    = match f with Avx => 2 * fst around (x - 3)%Z (z - 2)%Z | Avz => 2 * snd around (x - 3)%Z (z - 2)%Z | _ => 0 end).
  { intros f x z Hz. unfold on_grid. rewrite (C83_injection 5 4 4 none4 src5 step5 (fun _ => 1) (fun _ => 1) (fun _ => 1) (fun _ j => IZR j) (fun _ _ => 0) f x z (fun _ => true)).
    - cbn -[interpolated Z.add Z.sub around]. assert (I : interpolated (fun j => IZR j) ((2 * 1 + 0 - 0) / 1) = 2).
      { unfold interpolated, frac_part. rewrite (Int_part_is _ 2) by lra. cbn [Z.add Pos.add Pos.succ]. lra. }
      rewrite I. change (2 + (4 / 2 - 1) + 0)%Z with 3%Z. change (1 + (4 / 2 - 1) + 0)%Z with 2%Z. destruct f; unfold times, none; try (rewrite !Rmult_0_r; ring); field.
    - lia.
    - cbn. lia.
    - cbn. lra.
    - cbn. lra.
    - exact Hz.
    - intros i _. cbn -[Int_part]. split; [intros _|reflexivity]. rewrite (Int_part_is _ 2) by lra. unfold column. cbn. repeat split; try lra; lia.
    - intros i _ _. cbn. repeat split; try lra; try lia. }
  unfold divergence4, plus, dxf4, dzf4. rewrite !V by (cbn; lia). cbn -[Rdiv]. unfold minus, unit_at. cbn -[Rdiv]. field.
Qed.
Print Assumptions C84_shear_order_refuted.
Example C84_nonvacuous : in_model 5 4 4 none4 src5 step5 (fun _ => 1) /\ s_type src5 = 5%Z /\ (2 < t_ischeme step5)%Z.
Proof. split; [exact src5_in_model|split; reflexivity]. Qed.
