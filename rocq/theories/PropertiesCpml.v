(** Perfectly matched layers of the acoustic scheme: property theorems. *)
From Coq Require Import ZArith Reals List Lia Lra Bool.
From Verif Require Import ListAux FdKernels FdProofs FdOutputProofs Marchenko MarchenkoProofs ReadModel ViscoSpec ViscoProofs CpmlSpec Cpml CpmlProofs.
Import ListNotations.
Local Open Scope Z_scope.

(** a model of nx by nz points with layers of at least one point *)
Definition setup (nx nz : Z) (b : bnd) : Prop := 1 <= nx /\ 1 <= nz /\ 1 <= npml b.
(** a derivative at the fraction xi of the layers *)
Definition in_layer (b : bnd) (w : pml) (xi : R) (d : nat -> R) (k : nat) : R :=
  layer_derivative (p_m w) (p_R w) (p_cp w) (IZR (npml b) * p_dx w) (p_dt w) xi d k.

(** ** C81 *)
(** In call k of a shot, with the pressures p 0 ... p k of its calls, for whatever the memory holds from the shot before *)
Theorem C81_velocities nx nz b w rox roz p vx vz left k x z : setup nx nz b ->
  let g := layout nx nz 4 b in
  0 <= x < nax g -> 0 <= z < naz g ->
  let cell x z := x * naz g + z in
  let hits := touched (lef b) (rig b) (top b) (bot b) (npml b) (naz g) (nax g) in
  let X := inner (lef b =? 2) x in
  let Z := inner (top b =? 2) z in
  let dx k := behind (fun x => p k (cell x Z)) X in
  let dz k := behind (fun z => p k (cell X z)) Z in
  let ux := if beyond (lef b) (rig b) (npml b) (ioXx g) (ieXx g) X then in_layer b w (at_face (npml b) (ioXx g) (ieXx g) X) dx k else dx k in
  let uz := if beyond (top b) (bot b) (npml b) (ioZz g) (ieZz g) Z then in_layer b w (at_face (npml b) (ioZz g) (ieZz g) Z) dz k else dz k in
  let r := callP g b w rox roz p vx vz left k in
  fst r (cell x z) = (if hits (ioXx g) (ieXx g) (ioXz g) (ieXz g) X Z then vx k (cell X Z) - rox (cell X Z) * ux else vx k (cell X Z))%R /\
  snd r (cell x z) = (if hits (ioZx g) (ieZx g) (ioZz g) (ieZz g) X Z then vz k (cell X Z) - roz (cell X Z) * uz else vz k (cell X Z))%R.
Proof.
  intros Hs g Hx Hz cell hits X Z dx dz ux uz r.
  pose proof (dims_large nx nz b Hs) as [D1 D2]. fold g in D1, D2.
  assert (HZ : 0 <= Z < naz g) by (unfold Z, inner; destruct (top b =? 2); lia).
  unfold r, callP, layersP. cbn [fst snd].
  split; unfold cell at 1; unfold g; rewrite (ghosts_ok nx nz b Hs) by assumption; fold g; fold X Z.
  - pose proof (vx_all nx nz b w Hs (p k) rox (vx k, fst (fresh k (memoryP g b w rox roz p vx vz left k))) X Z HZ) as V. apply (f_equal fst) in V. etransitivity; [exact V|]. clear V. fold g.
    change (hit nx nz b (ioXx g) (ieXx g) (ioXz g) (ieXz g) X Z) with (hits (ioXx g) (ieXx g) (ioXz g) (ieXz g) X Z).
    destruct (hits (ioXx g) (ieXx g) (ioXz g) (ieXz g) X Z) eqn:Hh; [|reflexivity]. unfold ux.
    destruct (beyond (lef b) (rig b) (npml b) (ioXx g) (ieXx g) X) eqn:Hb; [|reflexivity].
    unfold view. cbn [fst snd]. pose proof (memory_x nx nz b w Hs rox roz p vx vz left X Z k HZ Hh Hb) as M.
    pose proof (after_layer b w (faces_x g b w) X (at_face (npml b) (ioXx g) (ieXx g) X) (rox (X * naz g + Z)) dx k (vx k (X * naz g + Z)) _ (faces_x_ok nx nz b w Hs X Hb) M) as A.
    apply (f_equal fst) in A. exact A.
  - pose proof (vz_all nx nz b w Hs (p k) roz (vz k, snd (fresh k (memoryP g b w rox roz p vx vz left k))) X Z HZ) as V. apply (f_equal fst) in V. etransitivity; [exact V|]. clear V. fold g.
    change (hit nx nz b (ioZx g) (ieZx g) (ioZz g) (ieZz g) X Z) with (hits (ioZx g) (ieZx g) (ioZz g) (ieZz g) X Z).
    destruct (hits (ioZx g) (ieZx g) (ioZz g) (ieZz g) X Z) eqn:Hh; [|reflexivity]. unfold uz.
    destruct (beyond (top b) (bot b) (npml b) (ioZz g) (ieZz g) Z) eqn:Hb; [|reflexivity].
    unfold view. cbn [fst snd]. pose proof (memory_z nx nz b w Hs rox roz p vx vz left X Z k HZ Hh Hb) as M.
    pose proof (after_layer b w (faces_z g b w) Z (at_face (npml b) (ioZz g) (ieZz g) Z) (roz (X * naz g + Z)) dz k (vz k (X * naz g + Z)) _ (faces_z_ok nx nz b w Hs Z Hb) M) as A.
    apply (f_equal fst) in A. exact A.
Qed.
Print Assumptions C81_velocities.

(** the pressure; its model starts at the point after the layer *)
Theorem C81_pressure nx nz b w l2m vx vz p left k x z : setup nx nz b ->
  let g := layout nx nz 4 b in
  0 <= x < nax g -> 0 <= z < naz g ->
  let cell x z := x * naz g + z in
  let n := npml b in
  let X := inner (lef b =? 2) x in
  let Z := inner (top b =? 2) z in
  let ox := 1 + (if lef b =? 2 then n else 0) in
  let ex := 1 + nx + pad b (lef b) + (if rig b =? 2 then 0 else pad b (rig b)) in
  let oz := 1 + (if top b =? 2 then n else 0) in
  let ez := 1 + nz + pad b (top b) + (if bot b =? 2 then 0 else pad b (bot b)) in
  let bx := beyond (lef b) (rig b) n ox ex X in
  let bz := beyond (top b) (bot b) n oz ez Z in
  let row := ((if top b =? 2 then 1 else oz) <=? Z) && (Z <? (if bot b =? 2 then ez + n else ez)) in
  let dx k := ahead_edge (nax g) (fun x => vx k (cell x Z)) X in
  let dz k := ahead_edge (naz g) (fun z => vz k (cell X z)) Z in
  let ux := if bx then in_layer b w (at_centre n ox ex X) dx k else dx k in
  let uz := if bz then in_layer b w (at_centre n oz ez Z) dz k else dz k in
  callV g b w l2m vx vz p left k (cell x z) =
    (if reach (nax g) n ox ex X && row && (bx || bz) then p k (cell X Z) - l2m (cell X Z) * (ux + uz) else p k (cell X Z))%R.
Proof.
  intros Hs g Hx Hz cell n X Z ox ex oz ez bx bz row dx dz ux uz.
  pose proof (dims_large nx nz b Hs) as [D1 D2]. fold g in D1, D2.
  assert (HZ : 0 <= Z < naz g) by (unfold Z, inner; destruct (top b =? 2); lia).
  pose proof (pad_values nx nz b Hs) as PV.
  assert (E1 : pox g b = ox). { unfold pox, ox, g. cbn [layout ioPx]. change (4 / 2) with 2. fold n. destruct (lef b =? 2); lia. }
  assert (E2 : pex g b = ex). { unfold pex, ex, g. cbn [layout iePx]. change (4 / 2) with 2. fold n. pose proof (PV (rig b)) as [V _]. fold n in V. destruct (rig b =? 2); [specialize (V eq_refl)|]; lia. }
  assert (E3 : poz g b = oz). { unfold poz, oz, g. cbn [layout ioPz]. change (4 / 2) with 2. fold n. destruct (top b =? 2); lia. }
  assert (E4 : pez g b = ez). { unfold pez, ez, g. cbn [layout iePz]. change (4 / 2) with 2. fold n. pose proof (PV (bot b)) as [V _]. fold n in V. destruct (bot b =? 2); [specialize (V eq_refl)|]; lia. }
  unfold callV, layersV. cbn [fst snd]. unfold cell at 1; unfold g; rewrite (ghosts_ok nx nz b Hs) by assumption; fold g; fold X Z.
  set (mem := fresh k (memoryV g b w l2m vx vz p left k)).
  pose proof (p_all nx nz b w Hs (vx k) (vz k) l2m (p k, mem) X Z HZ) as V. apply (f_equal fst) in V. etransitivity; [exact V|]. clear V. fold g.
  assert (Eh : p_hit nx nz b X Z = reach (nax g) n ox ex X && row && (bx || bz)).
  { unfold p_hit. fold g. rewrite E1, E2, E3, E4. unfold p_rows. fold g. rewrite E3, E4. fold n bx bz. f_equal. f_equal. unfold row.
    pose proof (p_hyps nx nz b Hs) as [_ (Z1 & Z2 & Z3 & Zt & Zb)]. fold g in Z1, Z2, Z3, Zt, Zb. rewrite E3, E4 in *. fold n in Zt, Zb.
    f_equal; [destruct (top b =? 2); [|reflexivity]|destruct (bot b =? 2); [|reflexivity]].
    - replace (Z.max 0 (oz - n)) with 1 by (unfold oz; lia). reflexivity.
    - replace (Z.min (naz g) (ez + n)) with (ez + n) by (specialize (Zb eq_refl); lia). reflexivity. }
  destruct (p_hit nx nz b X Z) eqn:Hh; rewrite <- Eh; [|reflexivity].
  unfold after3. fold g. rewrite E1, E2, E3, E4. fold n bx bz. cbn [fst snd view3].
  assert (Ux : fst (used (centres_x g b w) bx X (dx k) (fst mem (X * naz g + Z))) = ux).
  { unfold ux. destruct bx eqn:Hb; [|reflexivity].
    assert (Hb' : beyond (lef b) (rig b) (npml b) (pox g b) (pex g b) X = true) by (rewrite E1, E2; exact Hb).
    pose proof (memory_px nx nz b w Hs l2m vx vz p left X Z k HZ Hh Hb') as M.
    pose proof (used_layer b w (centres_x g b w) X (at_centre (npml b) (pox g b) (pex g b) X) dx k _ (centres_x_ok nx nz b w Hs X Hb') M) as A.
    apply (f_equal fst) in A. rewrite E1, E2 in A. exact A. }
  assert (Uz : fst (used (centres_z g b w) bz Z (dz k) (snd mem (X * naz g + Z))) = uz).
  { unfold uz. destruct bz eqn:Hb; [|reflexivity].
    assert (Hb' : beyond (top b) (bot b) (npml b) (poz g b) (pez g b) Z = true) by (rewrite E3, E4; exact Hb).
    pose proof (memory_pz nx nz b w Hs l2m vx vz p left X Z k HZ Hh Hb') as M.
    pose proof (used_layer b w (centres_z g b w) Z (at_centre (npml b) (poz g b) (pez g b) Z) dz k _ (centres_z_ok nx nz b w Hs Z Hb') M) as A.
    apply (f_equal fst) in A. rewrite E3, E4 in A. exact A. }
  change (dvx' nx nz b (vx k) X Z) with (dx k). change (dvz' nx nz b (vz k) X Z) with (dz k). rewrite <- Ux, <- Uz. reflexivity.
Qed.
Print Assumptions C81_pressure.

(** with absorbing sides all round (layers or tapers) the velocities only use pressures inside of the array; the pressure
    uses velocities inside of the array with any sides *)
Theorem C81_in_bounds nx nz b c a : setup nx nz b -> let g := layout nx nz 4 b in
  (absorbing (lef b) = true -> absorbing (rig b) = true -> absorbing (top b) = true -> absorbing (bot b) = true ->
    (In c (vx_cells g b) /\ In a (vx_reads g c)) \/ (In c (vz_cells g b) /\ In a (vz_reads g c)) -> 0 <= a < nax g * naz g) /\
  (In c (p_cells g b) -> In a (dvx_reads g c) \/ In a (dvz_reads g c) -> 0 <= a < nax g * naz g).
Proof.
  intros Hs g. pose proof (dims_large nx nz b Hs) as [D1 D2]. fold g in D1, D2. destruct Hs as (H1 & H2 & H3). split.
  - intros Al Ar At Ab H. destruct c as [x z].
    assert (G : forall ox ex oz ez, ox <= ex -> 0 <= oz <= ez -> 0 <= ox - npml b -> ex + npml b <= nax g -> 0 <= oz - npml b -> ez + npml b <= naz g -> In (x, z) (cells g b ox ex oz ez) ->
      ox - npml b <= x < ex + npml b /\ oz - npml b <= z < ez + npml b).
    { intros ox ex oz ez Hx Hz X1 X2 Z1 Z2 Hc. unfold g in Hc. rewrite (cells_hit nx nz b) in Hc by (fold g; lia). unfold hit in Hc. rewrite !andb_true_iff in Hc. destruct Hc as [[Rx Rz] _].
      apply reach_in, in_range in Rx. apply reach_in, in_range in Rz. lia. }
    assert (P : forall s, absorbing s = true -> pad b s = npml b) by (unfold pad; intros s ->; reflexivity).
    destruct H as [[Hc Ha]|[Hc Ha]].
    + apply G in Hc; try (unfold g; cbn [layout ioXx ieXx ioXz ieXz nax naz]; rewrite !P by assumption; change (4 / 2) with 2; lia).
      assert (B : 2 <= x < nax g - 1 /\ 0 <= z < naz g).
      { revert Hc. unfold g. cbn [layout ioXx ieXx ioXz ieXz nax naz]. rewrite !P by assumption. change (4 / 2) with 2. lia. }
      cbn [vx_reads fst snd In] in Ha. destruct Ha as [<-|[<-|[<-|[<-|[]]]]]; nia.
    + apply G in Hc; try (unfold g; cbn [layout ioZx ieZx ioZz ieZz nax naz]; rewrite !P by assumption; change (4 / 2) with 2; lia).
      assert (B : 1 <= x < nax g /\ 2 <= z < naz g - 1).
      { revert Hc. unfold g. cbn [layout ioZx ieZx ioZz ieZz nax naz]. rewrite !P by assumption. change (4 / 2) with 2. lia. }
      cbn [vz_reads fst snd In] in Ha. destruct Ha as [<-|[<-|[<-|[<-|[]]]]]; nia.
  - destruct c as [x z]. intros Hc Ha. unfold g in Hc. rewrite (p_cells_hit nx nz b (conj H1 (conj H2 H3))) in Hc. apply (p_hit_in nx nz b (conj H1 (conj H2 H3))) in Hc. fold g in Hc.
    unfold dvx_reads, dvz_reads in Ha. destruct Ha as [Ha|Ha].
    + destruct (Z.leb_spec 1 x); [destruct (Z.leb_spec x (nax g - 3))|]; cbn [andb In] in Ha; destruct (Z.ltb_spec (x + 1) (nax g)); destruct (Z.ltb_spec 0 x); intuition (subst; nia).
    + destruct (Z.leb_spec 1 z); [destruct (Z.leb_spec z (naz g - 3))|]; cbn [andb In] in Ha; destruct (Z.ltb_spec (z + 1) (naz g)); destruct (Z.ltb_spec 0 z); intuition (subst; nia).
Qed.
Print Assumptions C81_in_bounds.

(** with a layer at the top and another kind of side at the left (or the right) pressures before (after) the array are read *)
Theorem C81_mixed_sides_refuted nx nz b : setup nx nz b -> 2 <= npml b -> top b = 2 -> let g := layout nx nz 4 b in
  (absorbing (lef b) = false -> exists c a, In c (vx_cells g b) /\ In a (vx_reads g c) /\ a < 0) /\
  (absorbing (rig b) = false -> exists c a, In c (vx_cells g b) /\ In a (vx_reads g c) /\ nax g * naz g <= a).
Proof.
  intros Hs Hn Ht g. destruct (vx_hyps nx nz b Hs) as [X1 X2]. pose proof (dims_large nx nz b Hs) as [D1 D2]. fold g in D1, D2, X1, X2.
  assert (T : top b =? 2 = true) by now apply Z.eqb_eq. assert (Pt : pad b (top b) = npml b) by (now apply (pad_values nx nz b Hs)).
  assert (Bz : forall z, ioXz g - npml b <= z < ioXz g -> beyond (top b) (bot b) (npml b) (ioXz g) (ieXz g) z = true).
  { intros z Hz. unfold beyond. rewrite T. cbn [andb]. destruct (Z.leb_spec (ioXz g - npml b) z); [|lia]. destruct (Z.ltb_spec z (ioXz g)); [reflexivity|lia]. }
  assert (E : ioXz g = 1 + npml b /\ ieXz g = nz + 1 + npml b) by (unfold g; cbn [layout ioXz ieXz]; change (4 / 2) with 2; rewrite Pt; lia).
  assert (Rz : reach (naz g) (npml b) (ioXz g) (ieXz g) 1 = true).
  { unfold reach. apply andb_true_intro. split; [apply Z.leb_le|apply Z.ltb_lt]; destruct Hs; lia. }
  split; intros Ha.
  - assert (P : pad b (lef b) = 0) by (unfold pad; now rewrite Ha). exists (0, 1), (1 - 2 * naz g). split; [|split].
    + unfold vx_cells. unfold g. rewrite (cells_hit nx nz b) by assumption. fold g. unfold hit. fold g. rewrite Rz, Bz by lia. rewrite orb_true_r, !andb_true_r.
      unfold reach. apply andb_true_intro. unfold g. cbn [layout ioXx ieXx nax]. change (4 / 2) with 2. rewrite P. pose proof (pad_values nx nz b Hs (rig b)) as [_ Q].
      split; [apply Z.leb_le|apply Z.ltb_lt]; destruct Hs; lia.
    + cbn [vx_reads fst snd In]. right. right. right. left. ring.
    + lia.
  - assert (P : pad b (rig b) = 0) by (unfold pad; now rewrite Ha). exists (nax g - 1, 1), ((nax g - 1) * naz g + 1 + naz g). split; [|split].
    + unfold vx_cells. unfold g at 2. rewrite (cells_hit nx nz b) by assumption. fold g. unfold hit. fold g. rewrite Rz, Bz by lia. rewrite orb_true_r, !andb_true_r.
      unfold reach. apply andb_true_intro. pose proof (pad_values nx nz b Hs (lef b)) as [_ Q].
      split; [apply Z.leb_le|apply Z.ltb_lt]; unfold g; cbn [layout ioXx ieXx nax]; change (4 / 2) with 2; rewrite P; destruct Hs; unfold pad in *; destruct (absorbing (lef b)); lia.
    + cbn [vx_reads fst snd In]. right. right. left. reflexivity.
    + nia.
Qed.
Print Assumptions C81_mixed_sides_refuted.
(** a layer at the left below a free or rigid surface also changes the row above the surface, with pressures of the column before *)
Theorem C81_surface_refuted nx nz b : setup nx nz b -> 2 <= npml b -> absorbing (top b) = false -> lef b = 2 -> let g := layout nx nz 4 b in
  exists c a, In c (vz_cells g b) /\ In a (vz_reads g c) /\ a < fst c * naz g.
Proof.
  intros Hs Hn Ht Hl g. destruct (vz_hyps nx nz b Hs) as [X1 X2]. pose proof (dims_large nx nz b Hs) as [D1 D2]. fold g in D1, D2, X1, X2.
  assert (T : lef b =? 2 = true) by now apply Z.eqb_eq. assert (Pl : pad b (lef b) = npml b) by (now apply (pad_values nx nz b Hs)).
  assert (Pt : pad b (top b) = 0) by (unfold pad; now rewrite Ht). pose proof (pad_values nx nz b Hs (rig b)) as [_ Qr]. pose proof (pad_values nx nz b Hs (bot b)) as [_ Qb]. destruct Hs as (H1 & H2 & H3).
  exists (1, 0), (1 * naz g + 0 - 1). split; [|split].
  - unfold vz_cells. unfold g at 1. rewrite (cells_hit nx nz b) by first [assumption|exact (conj H1 (conj H2 H3))]. fold g. unfold hit. fold g. rewrite !andb_true_iff.
    assert (E : ioZx g = 1 + npml b /\ ieZx g = nx + 1 + npml b /\ nax g = nx + 4 + npml b + pad b (rig b) /\ ioZz g = 2 /\ ieZz g = nz + 2 /\ naz g = nz + 4 + pad b (bot b)).
    { unfold g. cbn [layout ioZx ieZx nax ioZz ieZz naz]. change (4 / 2) with 2. rewrite Pl, Pt. lia. }
    destruct E as (-> & -> & -> & -> & -> & ->). split; [split|]; unfold reach, beyond; rewrite ?T; cbn [andb].
    + apply andb_true_intro. split; [apply Z.leb_le|apply Z.ltb_lt]; lia.
    + apply andb_true_intro. split; [apply Z.leb_le|apply Z.ltb_lt]; lia.
    + destruct (Z.leb_spec (1 + npml b - npml b) 1); [|lia]. destruct (Z.ltb_spec 1 (1 + npml b)); [reflexivity|lia].
  - cbn [vz_reads fst snd In]. right. left. reflexivity.
  - cbn [fst]. lia.
Qed.
Print Assumptions C81_surface_refuted.

(** the coefficients are only set inside of their arrays *)
Theorem C81_coefficients_in_bounds nx nz b w i : setup nx nz b -> let g := layout nx nz 4 b in
  let none (k : coefs) := cb k i = 0%R /\ cc k i = 0%R /\ cik k i = 1%R in
  (~ 0 <= i < nax g -> none (faces_x g b w) /\ none (centres_x g b w)) /\ (~ 0 <= i < naz g -> none (faces_z g b w) /\ none (centres_z g b w)).
Proof.
  intros Hs g none. pose proof (pad_values nx nz b Hs) as PV. destruct (PV (lef b)) as [Pl Ql]. destruct (PV (rig b)) as [Pr Qr]. destruct (PV (top b)) as [Pt Qt]. destruct (PV (bot b)) as [Pb Qb]. destruct Hs as (H1 & H2 & H3).
  assert (N : forall k, at_coefs k i = (0, 0, 1)%R -> none k).
  { intros k E. unfold at_coefs in E. apply pair_equal_spec in E. destruct E as [E E3]. apply pair_equal_spec in E. destruct E. now repeat split. }
  assert (N0 : at_coefs no_layer i = (0, 0, 1)%R) by reflexivity.
  assert (S : forall lo hi xi k, ~ lo <= i < hi -> at_coefs k i = (0, 0, 1)%R -> at_coefs (set_coefs b w lo hi xi k) i = (0, 0, 1)%R).
  { intros lo hi xi k Hi E. rewrite set_coefs_ok. destruct (Z.leb_spec lo i); destruct (Z.ltb_spec i hi); cbn [andb]; try exact E. lia. }
  split; intros Hi; split; apply N; unfold faces_x, faces_z, centres_x, centres_z; cbv zeta.
  - destruct (lef b =? 2) eqn:El; destruct (rig b =? 2) eqn:Er; repeat apply S; try exact N0; lia.
  - destruct (lef b =? 2) eqn:El; destruct (rig b =? 2) eqn:Er; repeat apply S; try exact N0; try specialize (Pl eq_refl); try specialize (Pr eq_refl);
      revert Hi; unfold g; cbn [layout nax ioPx iePx ioXx]; change (4 / 2) with 2; lia.
  - destruct (top b =? 2) eqn:El; destruct (bot b =? 2) eqn:Er; repeat apply S; try exact N0; lia.
  - destruct (top b =? 2) eqn:El; destruct (bot b =? 2) eqn:Er; repeat apply S; try exact N0; try specialize (Pt eq_refl); try specialize (Pb eq_refl);
      revert Hi; unfold g; cbn [layout naz ioPz ieXz]; change (4 / 2) with 2; lia.
Qed.
Print Assumptions C81_coefficients_in_bounds.

Lemma fraction_increasing S u v : (0 < S -> 0 < u < v -> S * u / (1 + 4 * u) < S * v / (1 + 4 * v))%R.
Proof.
  intros HS [Hu Hv]. apply Rminus_gt_0_lt. replace (S * v / (1 + 4 * v) - S * u / (1 + 4 * u))%R with (S * (v - u) / ((1 + 4 * v) * (1 + 4 * u)))%R by (field; lra).
  apply Rmult_lt_0_compat; [apply Rmult_lt_0_compat; lra|]. apply Rinv_0_lt_compat, Rmult_lt_0_compat; lra.
Qed.
Lemma fading_decreasing m r c L dt xi xi' : (0 < max_damping m r c L -> 0 < dt -> 0 < xi < xi' -> xi < 1 ->
  fading (damping m r c L xi') (stretch m xi') dt < fading (damping m r c L xi) (stretch m xi) dt)%R.
Proof.
  intros HS Hdt Hxi H1. unfold fading, damping, stretch. apply exp_increasing.
  assert (Hm : (0 < exponent m)%R) by (unfold exponent; destruct (Rlt_dec 0 m); lra).
  assert (P : (0 < Rpower (Rmin 1 xi) (exponent m) < Rpower (Rmin 1 xi') (exponent m))%R).
  { split; [apply exp_pos|]. apply Rlt_Rpower_l; [exact Hm|]. unfold Rmin. destruct (Rle_dec 1 xi), (Rle_dec 1 xi'); lra. }
  pose proof (fraction_increasing _ _ _ HS P) as F. clear HS P. set (A := (max_damping m r c L * Rpower (Rmin 1 xi) (exponent m) / (1 + 4 * Rpower (Rmin 1 xi) (exponent m)))%R) in *.
  set (A' := (max_damping m r c L * Rpower (Rmin 1 xi') (exponent m) / (1 + 4 * Rpower (Rmin 1 xi') (exponent m)))%R) in *. clearbody A A'.
  rewrite <- !Ropp_mult_distr_l. apply Ropp_lt_contravar, Rmult_lt_compat_r; assumption.
Qed.
(** the layers at the left and the right side do not damp alike: the first pressure point of the left one is damped more *)
Theorem C81_symmetric_refuted nx nz b w : setup nx nz b -> lef b = 2 -> rig b = 2 -> (0 < p_dt w)%R ->
  (0 < max_damping (p_m w) (p_R w) (p_cp w) (IZR (npml b) * p_dx w))%R -> let g := layout nx nz 4 b in
  (cb (centres_x g b w) (npml b) < cb (centres_x g b w) (1 + nx + npml b))%R.
Proof.
  intros Hs El Er Hdt HS g. assert (Tl : lef b =? 2 = true) by now apply Z.eqb_eq. assert (Tr : rig b =? 2 = true) by now apply Z.eqb_eq.
  assert (Pl : pad b (lef b) = npml b) by (now apply (pad_values nx nz b Hs)). assert (Pr : pad b (rig b) = npml b) by (now apply (pad_values nx nz b Hs)).
  assert (E1 : pox g b = 1 + npml b) by (unfold pox; rewrite Tl; unfold g; cbn [layout ioPx]; change (4 / 2) with 2; lia).
  assert (E2 : pex g b = 1 + nx + npml b) by (unfold pex; rewrite Tr; unfold g; cbn [layout iePx]; change (4 / 2) with 2; lia).
  pose proof (fun i => centres_x_ok nx nz b w Hs i) as C. fold g in C. rewrite E1, E2 in C. unfold beyond in C. rewrite Tl, Tr in C. destruct Hs as (H1 & H2 & H3).
  pose proof (C (npml b)) as C1. pose proof (C (1 + nx + npml b)) as C2. clear C. rewrite layer_coef_ok in C1, C2.
  assert (Hn : (1 <= IZR (npml b))%R) by (now apply IZR_le).
  replace (at_centre (npml b) (1 + npml b) (1 + nx + npml b) (npml b)) with ((3 / 2) / IZR (npml b))%R in C1.
  2:{ unfold at_centre. destruct (Z.ltb_spec (npml b) (1 + npml b)); [|lia]. replace (1 + npml b - npml b) with 1 by lia. f_equal. lra. }
  replace (at_centre (npml b) (1 + npml b) (1 + nx + npml b) (1 + nx + npml b)) with ((1 / 2) / IZR (npml b))%R in C2.
  2:{ unfold at_centre. destruct (Z.ltb_spec (1 + nx + npml b) (1 + npml b)); [lia|]. replace (1 + nx + npml b - (1 + nx + npml b)) with 0 by lia. f_equal. lra. }
  assert (B1 : cb (centres_x g b w) (npml b) = fading (damping (p_m w) (p_R w) (p_cp w) (IZR (npml b) * p_dx w) (3 / 2 / IZR (npml b))) (stretch (p_m w) (3 / 2 / IZR (npml b))) (p_dt w)).
  { refine (f_equal (fun t => fst (fst t)) (C1 _)). destruct (Z.leb_spec (1 + npml b - npml b) (npml b)); [|lia]. destruct (Z.ltb_spec (npml b) (1 + npml b)); [reflexivity|lia]. }
  assert (B2 : cb (centres_x g b w) (1 + nx + npml b) = fading (damping (p_m w) (p_R w) (p_cp w) (IZR (npml b) * p_dx w) (1 / 2 / IZR (npml b))) (stretch (p_m w) (1 / 2 / IZR (npml b))) (p_dt w)).
  { refine (f_equal (fun t => fst (fst t)) (C2 _)). destruct (Z.leb_spec (1 + nx + npml b) (1 + nx + npml b)); [|lia]. destruct (Z.ltb_spec (1 + nx + npml b) (1 + nx + npml b + npml b)); [now rewrite orb_true_r|lia]. }
  rewrite B1, B2. assert (I : (0 < / IZR (npml b) <= 1)%R).
  { split; [apply Rinv_0_lt_compat; lra|]. rewrite <- Rinv_1. apply Rinv_le_contravar; lra. }
  apply fading_decreasing; [exact HS|exact Hdt| |]; unfold Rdiv; nra.
Qed.
Print Assumptions C81_symmetric_refuted.

(** ** C82: what the layers do to the changes of a field *)
Lemma sums_step c d n : upto (S (S n)) (fun k => c ^ (S n - k) * d k)%R = (c * upto (S n) (fun k => c ^ (n - k) * d k) + d (S n))%R.
Proof.
  change (upto (S (S n)) ?f) with (upto (S n) f + f (S n))%R. cbv beta. replace (S n - S n)%nat with 0%nat by lia. cbn [pow].
  rewrite (upto_ext (S n) (fun k => c ^ (S n - k) * d k)%R (fun k => c * (c ^ (n - k) * d k))%R).
  - rewrite upto_scale. ring.
  - intros j Hj. replace (S n - j)%nat with (S (n - j)) by lia. cbn [pow]. ring.
Qed.
Lemma energy_1 c d n : (0 < c < 1)%R -> let m n := ((1 - c) * upto (S n) (fun k => c ^ (n - k) * d k))%R in
  ((1 - c) * upto (S n) (fun k => (d k - m k) ^ 2) + c * m n ^ 2 <= (1 - c) * upto (S n) (fun k => d k ^ 2))%R.
Proof.
  intros Hc m. induction n as [|n IH].
  - unfold m. cbn [upto pow Nat.sub]. assert (0 <= c * (1 - c) * (d 0%nat * d 0%nat))%R by (apply Rmult_le_pos; [nra|apply Rle_0_sqr]). nra.
  - assert (E : m (S n) = (c * m n + (1 - c) * d (S n))%R) by (unfold m; rewrite sums_step; ring).
    change (upto (S (S n)) ?f) with (upto (S n) f + f (S n))%R. cbv beta.
    generalize dependent (m (S n)). intros y E. generalize dependent (m n). intros y' IH E.
    set (P := upto (S n) (fun k => (d k - m k) ^ 2)%R) in *. set (Q := upto (S n) (fun k => d k ^ 2)%R) in *. clearbody P Q. set (e := d (S n)) in *. clearbody e.
    assert (F : ((1 - c) * e = y - c * y')%R) by lra.
    assert (G : ((1 - c) * (e ^ 2 - (e - y) ^ 2) = (1 + c) * y ^ 2 - 2 * c * y * y')%R).
    { replace ((1 - c) * (e ^ 2 - (e - y) ^ 2))%R with (2 * ((1 - c) * e) * y - (1 - c) * y ^ 2)%R by ring. rewrite F. ring. }
    assert (H1 : (0 <= c * (y' - y) ^ 2)%R) by (apply Rmult_le_pos; [lra|apply pow2_ge_0]).
    assert (H2 : (0 <= (1 - c) * y ^ 2)%R) by (apply Rmult_le_pos; [lra|apply pow2_ge_0]). nra.
Qed.
Section RESPONSE.
Variables (m r c L dt xi : R).
Hypothesis Hdt : (0 < dt)%R.
Notation sig := (damping m r c L xi).
Notation kap := (stretch m xi).
Lemma kap_range : (1 < kap <= 5)%R.
Proof.
  unfold stretch. assert (0 < Rpower (Rmin 1 xi) (exponent m))%R by apply exp_pos. split; [lra|].
  assert (Hm : (0 < exponent m)%R) by (unfold exponent; destruct (Rlt_dec 0 m); lra).
  destruct (Rlt_dec 0 xi) as [Hx|Hx].
  - assert (Rpower (Rmin 1 xi) (exponent m) <= Rpower 1 (exponent m))%R.
    { apply Rle_Rpower_l; [lra|]. unfold Rmin. destruct (Rle_dec 1 xi); lra. }
    assert (Rpower 1 (exponent m) = 1)%R by (unfold Rpower; rewrite ln_1, Rmult_0_r; apply exp_0). lra.
  - replace (Rpower (Rmin 1 xi) (exponent m)) with 1%R; [lra|]. unfold Rpower, Rmin. destruct (Rle_dec 1 xi); [lra|]. unfold ln. destruct (Rlt_dec 0 xi); [contradiction|]. now rewrite Rmult_0_r, exp_0.
Qed.
Lemma fading_range : (/ 10 ^ 30 < sig -> 0 < fading sig kap dt < 1)%R.
Proof.
  intros H. assert (0 < / 10 ^ 30)%R by (apply Rinv_0_lt_compat, pow_lt; lra). pose proof kap_range. split; [apply exp_pos|].
  rewrite <- exp_0. apply exp_increasing. assert (0 < sig / kap * dt)%R by (apply Rmult_lt_0_compat; [apply Rmult_lt_0_compat; [lra|apply Rinv_0_lt_compat; lra]|assumption]). lra.
Qed.
Lemma energy_2 d n : (upto (S n) (fun k => layer_derivative m r c L dt xi d k ^ 2) <= upto (S n) (fun k => d k ^ 2) / kap ^ 2)%R.
Proof.
  pose proof kap_range as Hk. unfold layer_derivative. assert (0 < / kap ^ 2)%R by (apply Rinv_0_lt_compat, pow_lt; lra).
  destruct (Rlt_dec (/ 10 ^ 30) sig) as [H'|H'].
  - pose proof (fading_range H') as Hf. pose proof (energy_1 (fading sig kap dt) d n Hf) as E. cbv zeta in E.
    rewrite (upto_ext (S n) _ (fun k => / kap ^ 2 * (d k - (1 - fading sig kap dt) * upto (S k) (fun j => fading sig kap dt ^ (k - j) * d j)) ^ 2)%R).
    2:{ intros k _. unfold stretched. field. lra. }
    rewrite upto_scale. unfold Rdiv. rewrite Rmult_comm. apply Rmult_le_compat_r; [lra|].
    set (P := upto (S n) _) in E |- *. clearbody P. set (Q := upto (S n) (fun k => d k ^ 2)%R) in *. clearbody Q.
    assert (0 <= fading sig kap dt * ((1 - fading sig kap dt) * upto (S n) (fun k => fading sig kap dt ^ (n - k) * d k)) ^ 2)%R by (apply Rmult_le_pos; [lra|apply pow2_ge_0]).
    apply (Rmult_le_reg_l (1 - fading sig kap dt)); lra.
  - rewrite (upto_ext (S n) _ (fun k => / kap ^ 2 * d k ^ 2)%R) by (intros k _; field; lra). rewrite upto_scale. unfold Rdiv. rewrite Rmult_comm. apply Rle_refl.
Qed.
Lemma constant_1 e d n : stretched kap e (fun _ => d) n = (e ^ S n * d / kap)%R.
Proof.
  pose proof kap_range. unfold stretched. assert (E : ((1 - e) * upto (S n) (fun k => e ^ (n - k) * d) = d - e ^ S n * d)%R).
  { induction n as [|n IH]; [cbn [upto pow Nat.sub]; ring|]. rewrite (sums_step e (fun _ => d)). rewrite Rmult_plus_distr_l. replace ((1 - e) * (e * upto (S n) (fun k => e ^ (n - k) * d)))%R with (e * ((1 - e) * upto (S n) (fun k => e ^ (n - k) * d)))%R by ring. rewrite IH. cbn [pow]. ring. }
  rewrite E. field. lra.
Qed.
End RESPONSE.

(** a velocity inside of a layer at the left or right side, and one in a layer at the top or bottom *)
Definition point_x (nx nz : Z) (b : bnd) (x z : Z) : Prop := let g := layout nx nz 4 b in
  0 <= x < nax g /\ 0 <= z < naz g /\ inner (lef b =? 2) x = x /\ inner (top b =? 2) z = z /\
  beyond (lef b) (rig b) (npml b) (ioXx g) (ieXx g) x = true /\ reach (naz g) (npml b) (ioXz g) (ieXz g) z = true.
Definition point_z (nx nz : Z) (b : bnd) (x z : Z) : Prop := let g := layout nx nz 4 b in
  0 <= x < nax g /\ 0 <= z < naz g /\ inner (lef b =? 2) x = x /\ inner (top b =? 2) z = z /\
  reach (nax g) (npml b) (ioZx g) (ieZx g) x = true /\ beyond (top b) (bot b) (npml b) (ioZz g) (ieZz g) z = true.
Lemma beyond_reach first last size n o e i : o <= e -> (first =? 2 = true -> 0 <= o - n) -> (last =? 2 = true -> e + n <= size) -> 0 <= n -> 0 <= i < size -> beyond first last n o e i = true -> reach size n o e i = true.
Proof.
  unfold beyond, reach. intros H Hf Hl Hn Hi Hb. apply andb_true_intro. apply orb_prop in Hb. destruct Hb as [Hb|Hb]; apply andb_prop in Hb; destruct Hb as [Hb B2]; apply andb_prop in Hb; destruct Hb as [B0 B1];
  apply Z.leb_le in B1; apply Z.ltb_lt in B2; split; [apply Z.leb_le|apply Z.ltb_lt|apply Z.leb_le|apply Z.ltb_lt]; specialize (Hf) ; lia.
Qed.
Lemma vx_here nx nz b w rox roz p vx vz left k x z : setup nx nz b -> point_x nx nz b x z -> let g := layout nx nz 4 b in let a := x * naz g + z in
  fst (callP g b w rox roz p vx vz left k) a = (vx k a - rox a * in_layer b w (at_face (npml b) (ioXx g) (ieXx g) x) (fun k => behind (fun x => p k (x * naz g + z)%Z) x) k)%R.
Proof.
  intros Hs (Hx & Hz & Ix & Iz & Hb & Hr) g a. pose proof (C81_velocities nx nz b w rox roz p vx vz left k x z Hs Hx Hz) as [E _]. cbv zeta in E. rewrite Ix, Iz in E. rewrite Hb in E.
  destruct (vx_hyps nx nz b Hs) as [X1 X2]. pose proof Hs as (H1 & H2 & H3).
  assert (Rx : reach (nax g) (npml b) (ioXx g) (ieXx g) x = true) by (apply (beyond_reach (lef b) (rig b)); try apply X1; try assumption; lia).
  unfold touched in E. fold g in E, Hb, Hr. rewrite Rx, Hr, Hb in E. exact E.
Qed.
Lemma vz_here nx nz b w rox roz p vx vz left k x z : setup nx nz b -> point_z nx nz b x z -> let g := layout nx nz 4 b in let a := x * naz g + z in
  snd (callP g b w rox roz p vx vz left k) a = (vz k a - roz a * in_layer b w (at_face (npml b) (ioZz g) (ieZz g) z) (fun k => behind (fun z => p k (x * naz g + z)%Z) z) k)%R.
Proof.
  intros Hs (Hx & Hz & Ix & Iz & Hr & Hb) g a. pose proof (C81_velocities nx nz b w rox roz p vx vz left k x z Hs Hx Hz) as [_ E]. cbv zeta in E. rewrite Ix, Iz in E. rewrite Hb in E.
  destruct (vz_hyps nx nz b Hs) as [X1 X2]. pose proof Hs as (H1 & H2 & H3).
  assert (Rz : reach (naz g) (npml b) (ioZz g) (ieZz g) z = true) by (apply (beyond_reach (top b) (bot b)); try apply X2; try assumption; lia).
  unfold touched in E. fold g in E, Hb, Hr. rewrite Rz, Hr, Hb, orb_true_r in E. exact E.
Qed.
(** over any number of steps the changes of a velocity in a layer have at most the energy of the changes without the layer *)
Theorem C82_energy nx nz b w rox roz p vx vz left x z t : setup nx nz b -> (0 < p_dt w)%R ->
  let g := layout nx nz 4 b in let a := x * naz g + z in
  let r := callP g b w rox roz p vx vz left in
  (point_x nx nz b x z ->
    upto (S t) (fun k => (fst (r k) a - vx k a) ^ 2) <= upto (S t) (fun k => (rox a * behind (fun x => p k (x * naz g + z)%Z) x) ^ 2) / stretch (p_m w) (at_face (npml b) (ioXx g) (ieXx g) x) ^ 2)%R /\
  (point_z nx nz b x z ->
    upto (S t) (fun k => (snd (r k) a - vz k a) ^ 2) <= upto (S t) (fun k => (roz a * behind (fun z => p k (x * naz g + z)%Z) z) ^ 2) / stretch (p_m w) (at_face (npml b) (ioZz g) (ieZz g) z) ^ 2)%R.
Proof.
  intros Hs Hdt g a r.
  assert (G : forall xi ro d, (upto (S t) (fun k => (ro * in_layer b w xi d k) ^ 2) <= upto (S t) (fun k => (ro * d k) ^ 2) / stretch (p_m w) xi ^ 2)%R).
  { intros xi ro d. rewrite (upto_ext (S t) _ (fun k => ro ^ 2 * in_layer b w xi d k ^ 2)%R) by (intros; ring). rewrite (upto_ext (S t) (fun k => (ro * d k) ^ 2)%R (fun k => ro ^ 2 * d k ^ 2)%R) by (intros; ring).
    rewrite !upto_scale. unfold Rdiv. rewrite Rmult_assoc. apply Rmult_le_compat_l; [apply pow2_ge_0|]. apply energy_2. exact Hdt. }
  split; intros Hp.
  - rewrite (upto_ext (S t) _ (fun k => (rox a * in_layer b w (at_face (npml b) (ioXx g) (ieXx g) x) (fun k => behind (fun x => p k (x * naz g + z)%Z) x) k) ^ 2)%R); [apply G|].
    intros k _. unfold r, a, g. rewrite vx_here by assumption. ring.
  - rewrite (upto_ext (S t) _ (fun k => (roz a * in_layer b w (at_face (npml b) (ioZz g) (ieZz g) z) (fun k => behind (fun z => p k (x * naz g + z)%Z) z) k) ^ 2)%R); [apply G|].
    intros k _. unfold r, a, g. rewrite vz_here by assumption. ring.
Qed.
Print Assumptions C82_energy.

(** a pressure gradient that does not change any more is faded out: in step t it changes the velocity by the factor (b ^ (t+1)) / kap *)
Theorem C82_static nx nz b w rox roz p vx vz left x z d : setup nx nz b -> (0 < p_dt w)%R -> point_x nx nz b x z ->
  let g := layout nx nz 4 b in let a := x * naz g + z in
  let xi := at_face (npml b) (ioXx g) (ieXx g) x in
  let sig := damping (p_m w) (p_R w) (p_cp w) (IZR (npml b) * p_dx w) xi in
  let f := fading sig (stretch (p_m w) xi) (p_dt w) in
  (/ 10 ^ 30 < sig)%R -> (forall k, behind (fun x => p k (x * naz g + z)%Z) x = d) ->
  let change t := (fst (callP g b w rox roz p vx vz left t) a - vx t a)%R in
  (0 < f < 1)%R /\ (forall t, change t = - (rox a * (f ^ S t * d / stretch (p_m w) xi)))%R /\ Un_cv change 0.
Proof.
  intros Hs Hdt Hp g a xi sig f Hsig Hd change.
  assert (F : (0 < f < 1)%R) by (now apply fading_range).
  assert (E : forall t, change t = (- (rox a * (f ^ S t * d / stretch (p_m w) xi)))%R).
  { intros t. unfold change, a, g. rewrite vx_here by assumption. fold g. fold xi. fold a.
    replace (in_layer b w xi (fun k => behind (fun x => p k (x * naz g + z)%Z) x) t) with (f ^ S t * d / stretch (p_m w) xi)%R; [ring|].
    rewrite <- (constant_1 (p_m w) xi). unfold in_layer, layer_derivative. fold sig. destruct (Rlt_dec (/ 10 ^ 30) sig); [|contradiction]. fold f.
    unfold stretched. rewrite Hd. f_equal. f_equal. f_equal. apply upto_ext. intros. now rewrite Hd. }
  split; [exact F|]. split; [exact E|].
  intros eps He. set (K := (rox a * d / stretch (p_m w) xi * f)%R).
  assert (HK : (0 <= Rabs K)%R) by apply Rabs_pos.
  destruct (pow_lt_1_zero f) with (y := (eps / (Rabs K + 1))%R) as [N HN].
  - rewrite Rabs_right; lra.
  - apply Rmult_lt_0_compat; [lra|apply Rinv_0_lt_compat; lra].
  - exists N. intros t Ht. specialize (HN t Ht). unfold R_dist. rewrite E.
    pose proof (kap_range (p_m w) xi) as Hk.
    replace (- (rox a * (f ^ S t * d / stretch (p_m w) xi)) - 0)%R with (- (K * f ^ t))%R by (unfold K; cbn [pow]; field; lra).
    rewrite Rabs_Ropp, Rabs_mult. clearbody K. set (q := Rabs (f ^ t)) in *. assert (0 <= q)%R by apply Rabs_pos. clearbody q.
    apply Rle_lt_trans with ((Rabs K + 1) * q)%R; [nra|]. apply (Rmult_lt_compat_l (Rabs K + 1)) in HN; [|lra]. replace ((Rabs K + 1) * (eps / (Rabs K + 1)))%R with eps in HN by (field; lra). exact HN.
Qed.
Print Assumptions C82_static.

(** the damping adds up, over the layer there and back, to the reflection coefficient that was asked for: F is a primitive of the damping *)
Theorem C82_reflection m r c L : (0 < c)%R -> (0 < L)%R ->
  let F xi := (max_damping m r c L * Rpower xi (exponent m + 1) / (exponent m + 1))%R in
  (forall xi, 0 < xi < 1 -> derivable_pt_lim F xi (damping m r c L xi))%R /\ (exp (- (2 / c) * (L * F 1)) = reflection r)%R.
Proof.
  intros Hc HL F. assert (Hm : (0 < exponent m)%R) by (unfold exponent; destruct (Rlt_dec 0 m); lra). split.
  - intros xi Hxi. pose proof (derivable_pt_lim_power xi (exponent m + 1) ltac:(lra)) as D.
    pose proof (derivable_pt_lim_scal _ (max_damping m r c L / (exponent m + 1)) _ _ D) as D'.
    replace (damping m r c L xi) with (max_damping m r c L / (exponent m + 1) * ((exponent m + 1) * Rpower xi (exponent m + 1 - 1)))%R.
    + intros eps He. destruct (D' eps He) as [del Hd]. exists del. intros h Hh Hh'. specialize (Hd h Hh Hh'). unfold mult_real_fct in Hd.
      replace (F (xi + h) - F xi)%R with (max_damping m r c L / (exponent m + 1) * Rpower (xi + h) (exponent m + 1) - max_damping m r c L / (exponent m + 1) * Rpower xi (exponent m + 1))%R by (unfold F; field; lra). exact Hd.
    + unfold damping. rewrite Rmin_right by lra. replace (exponent m + 1 - 1)%R with (exponent m) by ring. field. lra.
  - assert (Hr : (0 < reflection r)%R) by (unfold reflection; destruct (Rlt_dec 0 r); lra).
    unfold F, max_damping. replace (Rpower 1 (exponent m + 1)) with 1%R by (unfold Rpower; rewrite ln_1, Rmult_0_r; symmetry; apply exp_0).
    replace (ln (1 / reflection r)) with (- ln (reflection r))%R by (unfold Rdiv; rewrite Rmult_1_l, ln_Rinv; [reflexivity|exact Hr]).
    replace (- (2 / c) * (L * ((exponent m + 1) * c / (2 * L) * - ln (reflection r) * 1 / (exponent m + 1))))%R with (ln (reflection r)) by (field; lra). now apply exp_ln.
Qed.
Print Assumptions C82_reflection.

(** a model of 3 by 3 points with layers of 5 points: a point of the left layer and one of the top layer; damping with the standard parameters *)
Definition b5 : bnd := mk_bnd 2 2 2 2 5.
Definition w5 : pml := mkPml 0 0 1500 10 (/ 1000).
Example C81_nonvacuous : setup 3 3 b5 /\ point_x 3 3 b5 4 8 /\ point_z 3 3 b5 8 4 /\ (/ 10 ^ 30 < damping (p_m w5) (p_R w5) (p_cp w5) (IZR (npml b5) * p_dx w5) (at_face 5 7 10 4))%R.
Proof.
  split; [unfold setup; cbn; lia|]. split; [unfold point_x; cbn; repeat split; lia|]. split; [unfold point_z; cbn; repeat split; lia|].
  unfold damping, max_damping, at_face, w5, b5, exponent, reflection. cbn [p_m p_R p_cp p_dx npml]. destruct (Rlt_dec 0 0); [lra|]. cbn -[pow Rpower ln Rmin Rdiv Rinv].
  assert (E : Rpower (Rmin 1 (3 / 5)) 2 = (9 / 25)%R). { rewrite Rmin_right by lra. replace 2%R with (INR 2) by reflexivity. rewrite Rpower_pow by lra. cbn [pow]. lra. }
  rewrite E. assert (Hl : (1 <= ln (1 / / 100000))%R).
  { replace (1 / / 100000)%R with 100000%R by (field; lra). apply Rnot_lt_le. intros H. assert (ln 100000 < ln (exp 1))%R by (rewrite ln_exp; exact H). apply ln_lt_inv in H0; [|lra|apply exp_pos]. pose proof exp_le_3. lra. }
  assert (Hp : (/ 10 ^ 30 <= 1)%R). { rewrite <- Rinv_1. apply Rinv_le_contravar; [lra|]. apply pow_R1_Rle. lra. }
  generalize dependent (/ 10 ^ 30)%R. intros e He. generalize dependent (ln (1 / / 100000))%R. intros l Hl. lra.
Qed.
