(** Lemmas about the loops of readModel.c *)
From Coq Require Import ZArith Reals List Lia Lra Bool.
From Verif Require Import ListAux FdKernels FdProofs FdOutputProofs Marchenko MarchenkoProofs MakemodProofs PropertiesFftLayout ReadModel ReadModelSpec.
Import ListNotations.
Local Open Scope Z_scope.

Lemma cell_eq n1 a b a' b' : 0 <= b < n1 -> 0 <= b' < n1 -> a * n1 + b = a' * n1 + b' -> a = a' /\ b = b'.
Proof. intros Hb Hb' E. apply (row_inj n1 n1); lia. Qed.
Definition inside (x0 x1 z0 z1 a b : Z) : bool := (x0 <=? a) && (a <? x1) && (z0 <=? b) && (b <? z1).

Lemma rect_ok n1 x0 x1 z0 z1 (f : Z -> Z -> (Z -> R) -> R) m : 0 <= z0 -> z1 <= n1 ->
  (forall a b m', inside x0 x1 z0 z1 a b = true -> (forall a' b', 0 <= b' < n1 -> inside x0 x1 z0 z1 a' b' = false \/ (a' = a /\ b' = b) -> m' (a' * n1 + b') = m (a' * n1 + b')) -> f a b m' = f a b m) ->
  forall a b, 0 <= b < n1 ->
  fold_left (fun m ix => fold_left (fun m iz => upd m (ix * n1 + iz) (f ix iz m)) (range z0 z1) m) (range x0 x1) m (a * n1 + b) =
  if inside x0 x1 z0 z1 a b then f a b m else m (a * n1 + b).
Proof.
  intros Hz0 Hz1 Hf.
  destruct (Z.le_gt_cases x1 x0) as [Hx|Hx].
  { intros a b Hb. rewrite (range_nil x0) by lia. cbn [fold_left]. unfold inside. destruct (Z.leb_spec x0 a); [|reflexivity]. replace (a <? x1) with false by lia. reflexivity. }
  destruct (Z.le_gt_cases z1 z0) as [Hz|Hz].
  { intros a b Hb. rewrite (range_nil z0) by lia. cbn [fold_left]. replace (fold_left (fun (m0 : Z -> R) (_ : Z) => m0) (range x0 x1) m) with m by (generalize (range x0 x1); intros l; induction l; cbn; congruence).
    unfold inside. destruct (Z.leb_spec z0 b); [|now rewrite !andb_false_r]. replace (b <? z1) with false by lia. now rewrite !andb_false_r. }
  apply (fold_range_inv (fun x m' => forall a b, 0 <= b < n1 -> m' (a * n1 + b) = if inside x0 x z0 z1 a b then f a b m else m (a * n1 + b)) _ x0 x1 m); [lia| |].
  { intros a b Hb. unfold inside. destruct (Z.leb_spec x0 a); [|reflexivity]. replace (a <? x0) with false by lia. reflexivity. }
  intros x m1 Hx1 H1.
  assert (K : forall a b, 0 <= b < n1 -> fold_left (fun m iz => upd m (x * n1 + iz) (f x iz m)) (range z0 z1) m1 (a * n1 + b) = if (a =? x) && (z0 <=? b) && (b <? z1) then f a b m else m1 (a * n1 + b)).
  { apply (fold_range_inv (fun z m' => forall a b, 0 <= b < n1 -> m' (a * n1 + b) = if (a =? x) && (z0 <=? b) && (b <? z) then f a b m else m1 (a * n1 + b)) _ z0 z1 m1); [lia| |].
    - intros a b Hb. destruct (Z.leb_spec z0 b); [replace (b <? z0) with false by lia|]; now rewrite ?andb_false_r.
    - intros z m2 Hz2 H2 a b Hb. destruct (Z.eq_dec a x) as [Ea|Ea], (Z.eq_dec b z) as [Eb|Eb].
      + subst a b. rewrite upd_same. rewrite Z.eqb_refl. replace (z0 <=? z) with true by lia. replace (z <? z + 1) with true by lia. cbn [andb].
        apply Hf; [unfold inside; lia|]. intros a' b' Hb' Ho. rewrite H2 by exact Hb'. 
        replace ((a' =? x) && (z0 <=? b') && (b' <? z)) with false by (unfold inside in Ho; lia). rewrite H1 by exact Hb'. replace (inside x0 x z0 z1 a' b') with false by (unfold inside in *; lia). reflexivity.
      + rewrite upd_other by (intros E; apply cell_eq in E; lia). rewrite H2 by exact Hb. replace (b <? z + 1) with (b <? z) by lia. reflexivity.
      + rewrite upd_other by (intros E; apply cell_eq in E; lia). rewrite H2 by exact Hb. replace (a =? x) with false by lia. reflexivity.
      + rewrite upd_other by (intros E; apply cell_eq in E; lia). rewrite H2 by exact Hb. replace (a =? x) with false by lia. reflexivity. }
  intros a b Hb. rewrite K by exact Hb. rewrite H1 by exact Hb. unfold inside. destruct (Z.eqb_spec a x) as [->|N].
  - replace (x0 <=? x) with true by lia. replace (x <? x + 1) with true by lia. replace (x <? x) with false by lia. cbn [andb]. reflexivity.
  - replace (a <? x + 1) with (a <? x) by lia. reflexivity.
Qed.
Lemma copy_col_ok n1 x0 x1 z0 z1 xs m a b : 0 <= z0 -> z1 <= n1 -> 0 <= b < n1 -> (x0 < x1 -> ~ x0 <= xs < x1) ->
  copy_col n1 x0 x1 z0 z1 xs m (a * n1 + b) = if inside x0 x1 z0 z1 a b then m (xs * n1 + b) else m (a * n1 + b).
Proof.
  intros H0 H1 Hb Hs. unfold copy_col. apply (rect_ok n1 x0 x1 z0 z1 (fun _ iz m => m (xs * n1 + iz))); [exact H0|exact H1| |exact Hb].
  intros a' b' m' Hi He. apply He; [unfold inside in *; lia|left; unfold inside in *; lia].
Qed.
Lemma copy_row_ok n1 x0 x1 z0 z1 zs m a b : 0 <= z0 -> z1 <= n1 -> 0 <= b < n1 -> 0 <= zs < n1 -> (z0 < z1 -> ~ z0 <= zs < z1) ->
  copy_row n1 x0 x1 z0 z1 zs m (a * n1 + b) = if inside x0 x1 z0 z1 a b then m (a * n1 + zs) else m (a * n1 + b).
Proof.
  intros H0 H1 Hb Hz Hs. unfold copy_row. apply (rect_ok n1 x0 x1 z0 z1 (fun ix _ m => m (ix * n1 + zs))); [exact H0|exact H1| |exact Hb].
  intros a' b' m' Hi He. apply He; [unfold inside in *; lia|left; unfold inside in *; lia].
Qed.
Lemma fold_set n1 ox oz x0 x1 z0 z1 v m : 
  fold_left (fun m ix => fold_left (fun m iz => set n1 ox oz ix iz (v ix iz) m) (range z0 z1) m) (range x0 x1) m =
  fold_left (fun m ix => fold_left (fun m iz => upd m (ix * n1 + iz) (v (ix - ox) (iz - oz))) (range (z0 + oz) (z1 + oz)) m) (range (x0 + ox) (x1 + ox)) m.
Proof.
  assert (S : forall a b k, range (a + k) (b + k) = map (fun i => i + k) (range a b)).
  { intros a b k. unfold range. rewrite map_map. replace (b + k - (a + k)) with (b - a) by ring. apply map_ext. intros i. ring. }
  assert (F : forall (g : (Z -> R) -> Z -> Z -> R) (h : Z -> Z) (l : list Z) m, fold_left g (map h l) m = fold_left (fun m i => g m (h i)) l m).
  { intros g h l. induction l as [|x l IH]; intros m0; cbn; [reflexivity|apply IH]. }
  rewrite !S, F. revert m. induction (range x0 x1) as [|x l IH]; intros m; [reflexivity|]. cbn [fold_left]. rewrite IH. f_equal.
  rewrite F. revert m. clear. induction (range z0 z1) as [|z l IH]; intros m; [reflexivity|]. cbn [fold_left]. rewrite IH. f_equal. unfold set. replace (x + ox - ox) with x by ring. replace (z + oz - oz) with z by ring. f_equal. ring.
Qed.
Lemma one_row {A} (f : A -> Z -> A) k m : fold_left f (range k (k + 1)) m = f m k.
Proof. rewrite range_snoc, range_nil by lia. reflexivity. Qed.
Lemma set_rect n1 ox oz x0 x1 z0 z1 v m a b : 0 <= z0 + oz -> z1 + oz <= n1 -> 0 <= b < n1 ->
  fold_left (fun m ix => fold_left (fun m iz => set n1 ox oz ix iz (v ix iz) m) (range z0 z1) m) (range x0 x1) m (a * n1 + b) =
  if inside x0 x1 z0 z1 (a - ox) (b - oz) then v (a - ox) (b - oz) else m (a * n1 + b).
Proof.
  intros H0 H1 Hb. rewrite fold_set. rewrite (rect_ok n1 _ _ _ _ (fun ix iz _ => v (ix - ox) (iz - oz))) by (assumption || reflexivity).
  replace (inside (x0 + ox) (x1 + ox) (z0 + oz) (z1 + oz) a b) with (inside x0 x1 z0 z1 (a - ox) (b - oz)) by (unfold inside; lia). reflexivity.
Qed.
Lemma fill_ok n1 nx nz ox oz bo ri co inn V m a b : 1 <= nx -> 1 <= nz -> 0 <= oz -> nz + oz <= n1 -> 0 <= b < n1 ->
  (forall ix iz, 0 <= ix < nx -> 0 <= iz < nz -> V ix iz = if ix =? nx - 1 then (if iz =? nz - 1 then co ix iz else ri ix iz) else if iz =? nz - 1 then bo ix iz else inn ix iz) ->
  fill n1 nx nz ox oz bo ri co inn m (a * n1 + b) = if inside 0 nx 0 nz (a - ox) (b - oz) then V (a - ox) (b - oz) else m (a * n1 + b).
Proof.
  intros Hx Hz Ho Hn Hb HV. unfold fill. rewrite set_rect by lia.
  assert (C : forall m, set n1 ox oz (nx - 1) (nz - 1) (co (nx - 1) (nz - 1)) m (a * n1 + b) = if (a - ox =? nx - 1) && (b - oz =? nz - 1) then co (a - ox) (b - oz) else m (a * n1 + b)).
  { intros m0. unfold set. destruct (Z.eqb_spec (a - ox) (nx - 1)) as [Ea|Ea], (Z.eqb_spec (b - oz) (nz - 1)) as [Eb|Eb]; cbn [andb].
    - rewrite Ea, Eb. replace (a * n1 + b) with ((nx - 1 + ox) * n1 + (nz - 1) + oz) by (replace a with (nx - 1 + ox) by lia; lia). now rewrite upd_same.
    - apply upd_other. intros E. rewrite <- Z.add_assoc in E. apply cell_eq in E; lia.
    - apply upd_other. intros E. rewrite <- Z.add_assoc in E. apply cell_eq in E; lia.
    - apply upd_other. intros E. rewrite <- Z.add_assoc in E. apply cell_eq in E; lia. }
  rewrite C. clear C.
  assert (Rr : forall m, fold_left (fun m iz => set n1 ox oz (nx - 1) iz (ri (nx - 1) iz) m) (range 0 (nz - 1)) m (a * n1 + b) = if inside (nx - 1) nx 0 (nz - 1) (a - ox) (b - oz) then ri (a - ox) (b - oz) else m (a * n1 + b)).
  { intros m0. pose proof (set_rect n1 ox oz (nx - 1) nx 0 (nz - 1) ri m0 a b ltac:(lia) ltac:(lia) Hb) as E. replace nx with (nx - 1 + 1) in E at 2 by ring. rewrite one_row in E. exact E. }
  rewrite Rr. clear Rr.
  assert (B : fold_left (fun m ix => set n1 ox oz ix (nz - 1) (bo ix (nz - 1)) m) (range 0 (nx - 1)) m (a * n1 + b) = if inside 0 (nx - 1) (nz - 1) nz (a - ox) (b - oz) then bo (a - ox) (b - oz) else m (a * n1 + b)).
  { pose proof (set_rect n1 ox oz 0 (nx - 1) (nz - 1) nz bo m a b ltac:(lia) ltac:(lia) Hb) as E. rewrite <- E. f_equal. f_equal. clear. replace (range (nz - 1) nz) with [nz - 1]; [reflexivity|]. replace nz with (nz - 1 + 1) at 3 by ring. rewrite range_snoc, range_nil by lia. reflexivity. }
  rewrite B. clear B. destruct (inside 0 nx 0 nz (a - ox) (b - oz)) eqn:I.
  - rewrite HV by (unfold inside in I; lia). unfold inside in *. destruct (Z.eqb_spec (a - ox) (nx - 1)), (Z.eqb_spec (b - oz) (nz - 1)); cbn [andb].
    + replace ((0 <=? a - ox) && (a - ox <? nx - 1) && (0 <=? b - oz) && (b - oz <? nz - 1)) with false by lia. reflexivity.
    + replace ((0 <=? a - ox) && (a - ox <? nx - 1) && (0 <=? b - oz) && (b - oz <? nz - 1)) with false by lia. replace ((nx - 1 <=? a - ox) && (a - ox <? nx) && (0 <=? b - oz) && (b - oz <? nz - 1)) with true by lia. reflexivity.
    + replace ((0 <=? a - ox) && (a - ox <? nx - 1) && (0 <=? b - oz) && (b - oz <? nz - 1)) with false by lia. replace ((nx - 1 <=? a - ox) && (a - ox <? nx) && (0 <=? b - oz) && (b - oz <? nz - 1)) with false by lia. replace ((0 <=? a - ox) && (a - ox <? nx - 1) && (nz - 1 <=? b - oz) && (b - oz <? nz)) with true by lia. reflexivity.
    + replace ((0 <=? a - ox) && (a - ox <? nx - 1) && (0 <=? b - oz) && (b - oz <? nz - 1)) with true by lia. reflexivity.
  - unfold inside in *. replace ((0 <=? a - ox) && (a - ox <? nx - 1) && (0 <=? b - oz) && (b - oz <? nz - 1)) with false by lia. replace ((a - ox =? nx - 1) && (b - oz =? nz - 1)) with false by lia. replace ((nx - 1 <=? a - ox) && (a - ox <? nx) && (0 <=? b - oz) && (b - oz <? nz - 1)) with false by lia. replace ((0 <=? a - ox) && (a - ox <? nx - 1) && (nz - 1 <=? b - oz) && (b - oz <? nz)) with false by lia. reflexivity.
Qed.
Lemma clear_ok n1 nx nz l2m px pz ox oz m a b : 0 <= oz -> nz + oz <= n1 -> 0 <= b < n1 ->
  clear n1 nx nz l2m px pz ox oz m (a * n1 + b) =
  if inside 0 nx 0 nz (a - ox) (b - oz) then (if Req_EM_T (l2m ((a - ox + px) * n1 + (b - oz + pz))) 0 then 0%R else m (a * n1 + b)) else m (a * n1 + b).
Proof.
  intros Ho Hn Hb. unfold clear.
  assert (U : forall (l : Z -> R) k (m : Z -> R), (forall x, (if Req_EM_T (l x) 0 then upd m k 0%R else m) = upd m k (if Req_EM_T (l x) 0 then 0%R else m k))).
  { intros l k m0 x. destruct (Req_EM_T (l x) 0); [reflexivity|]. apply FunctionalExtensionality.functional_extensionality. intros y. unfold upd. destruct (Z.eqb_spec y k); congruence. }
  transitivity (fold_left (fun m ix => fold_left (fun m iz => upd m (ix * n1 + iz) (if Req_EM_T (l2m ((ix - ox + px) * n1 + (iz - oz + pz))) 0 then 0%R else m (ix * n1 + iz))) (range (0 + oz) (nz + oz)) m) (range (0 + ox) (nx + ox)) m (a * n1 + b)).
  - apply (f_equal (fun F => F (a * n1 + b))). assert (S : forall a b k, range (a + k) (b + k) = map (fun i => i + k) (range a b)).
    { intros a' b' k. unfold range. rewrite map_map. replace (b' + k - (a' + k)) with (b' - a') by ring. apply map_ext. intros i. ring. }
    assert (F : forall (g : (Z -> R) -> Z -> Z -> R) (h : Z -> Z) (l : list Z) m, fold_left g (map h l) m = fold_left (fun m i => g m (h i)) l m).
    { intros g h l. induction l as [|x l IH]; intros m0; cbn; [reflexivity|apply IH]. }
    rewrite !S, F. clear a b Hb. revert m. induction (range 0 nx) as [|x l IH]; intros m; [reflexivity|]. cbn [fold_left]. rewrite IH. f_equal.
    rewrite F. revert m. clear IH. induction (range 0 nz) as [|z l' IH]; intros m; [reflexivity|]. cbn [fold_left]. rewrite IH. f_equal. unfold set. rewrite U. replace (x + ox - ox + px) with (x + px) by ring. replace (z + oz - oz + pz) with (z + pz) by ring. rewrite !Z.add_assoc. reflexivity.
  - rewrite (rect_ok n1 _ _ _ _ (fun ix iz m => if Req_EM_T (l2m ((ix - ox + px) * n1 + (iz - oz + pz))) 0 then 0%R else m (ix * n1 + iz))).
    + replace (inside (0 + ox) (nx + ox) (0 + oz) (nz + oz) a b) with (inside 0 nx 0 nz (a - ox) (b - oz)) by (unfold inside; lia). reflexivity.
    + lia.
    + lia.
    + intros a' b' m' Hi He. rewrite He; [reflexivity|unfold inside in Hi; lia|now right].
    + exact Hb.
Qed.

Lemma on_ok c f m x : on c f m x = if c then f m x else m x.
Proof. now destruct c. Qed.
(** all cells of the padded model have the value of the nearest cell of the model *)
Definition extended (n1 xo zo nx nz l r t u : Z) (m m' : Z -> R) : Prop := forall a b, 0 <= b < n1 ->
  m' (a * n1 + b) = if inside (- l) (nx + r) (- t) (nz + u) (a - xo) (b - zo) then m ((xo + nearest nx (a - xo)) * n1 + (zo + nearest nz (b - zo))) else m (a * n1 + b).
Section EXT.
Variables (nx nz iorder : Z) (b : bnd).
Hypothesis (Hx : 1 <= nx) (Hz : 1 <= nz) (Hn : 0 <= npml b).
Let n1 := naz (layout nx nz iorder b).
Lemma pad_pos side : 0 <= pad b side.
Proof. unfold pad. destruct (absorbing side); lia. Qed.
Lemma on_col side x0 x1 z0 z1 xs x0' x1' m x z : 0 <= z0 -> z1 <= n1 -> 0 <= z < n1 -> (x0 < x1 -> ~ x0 <= xs < x1) ->
  x0' = (if absorbing side then x0 else x1) \/ x0' = x0 -> x1' = (if absorbing side then x1 else x0') -> (absorbing side = true -> x0' = x0) ->
  on (absorbing side) (copy_col n1 x0 x1 z0 z1 xs) m (x * n1 + z) = if inside x0' x1' z0 z1 x z then m (xs * n1 + z) else m (x * n1 + z).
Proof.
  intros H0 H1 Hz' Hs A B C. rewrite on_ok. destruct (absorbing side).
  - rewrite copy_col_ok by assumption. rewrite C, B by reflexivity. reflexivity.
  - rewrite B. replace (inside x0' x0' z0 z1 x z) with false by (unfold inside; lia). reflexivity.
Qed.
Lemma on_row side x0 x1 z0 z1 zs z0' z1' m x z : 0 <= z0 \/ absorbing side = false -> z1 <= n1 \/ absorbing side = false -> 0 <= z < n1 -> 0 <= zs < n1 -> (z0 < z1 -> ~ z0 <= zs < z1) ->
  z1' = (if absorbing side then z1 else z0') -> (absorbing side = true -> z0' = z0) ->
  on (absorbing side) (copy_row n1 x0 x1 z0 z1 zs) m (x * n1 + z) = if inside x0 x1 z0' z1' x z then m (x * n1 + zs) else m (x * n1 + z).
Proof.
  intros H0 H1 Hz' Hzs Hs B C. rewrite on_ok. destruct (absorbing side).
  - rewrite copy_row_ok by (assumption || (destruct H0, H1; (assumption || discriminate))). rewrite C, B by reflexivity. reflexivity.
  - rewrite B. replace (inside x0 x1 z0' z0' x z) with false by (unfold inside; lia). reflexivity.
Qed.
Ltac split_ifs := repeat match goal with |- context [if ?c then _ else _] => let E := fresh "I" in destruct c eqn:E end.
Lemma extend_v_ok xo zo m : pad b (top b) <= zo -> zo + nz + pad b (bot b) <= n1 ->
  extended n1 xo zo nx nz (pad b (lef b)) (pad b (rig b)) (pad b (top b)) (pad b (bot b)) m (extend_v nx nz iorder b xo (xo + nx) zo (zo + nz) m).
Proof.
  intros Ht Hu x z Hz'. unfold extend_v. fold n1.
  pose proof (pad_pos (lef b)) as Pl. pose proof (pad_pos (rig b)) as Pr. pose proof (pad_pos (top b)) as Pt. pose proof (pad_pos (bot b)) as Pu.
  replace (if absorbing (lef b) then xo - npml b else xo) with (xo - pad b (lef b)) by (unfold pad; destruct (absorbing (lef b)); lia).
  replace (if absorbing (rig b) then xo + nx + npml b else xo + nx) with (xo + nx + pad b (rig b)) by (unfold pad; destruct (absorbing (rig b)); lia).
  assert (L : forall m x z, 0 <= z < n1 -> on (absorbing (lef b)) (copy_col n1 (xo - npml b) xo zo (zo + nz) xo) m (x * n1 + z) = if inside (xo - pad b (lef b)) xo zo (zo + nz) x z then m (xo * n1 + z) else m (x * n1 + z)).
  { intros. apply on_col; try lia; unfold pad; destruct (absorbing (lef b)); lia. }
  assert (R' : forall m x z, 0 <= z < n1 -> on (absorbing (rig b)) (copy_col n1 (xo + nx) (xo + nx + npml b) zo (zo + nz) (xo + nx - 1)) m (x * n1 + z) = if inside (xo + nx) (xo + nx + pad b (rig b)) zo (zo + nz) x z then m ((xo + nx - 1) * n1 + z) else m (x * n1 + z)).
  { intros. apply on_col; try lia; unfold pad; destruct (absorbing (rig b)); lia. }
  assert (T : forall m x0 x1 x z, 0 <= z < n1 -> on (absorbing (top b)) (copy_row n1 x0 x1 (zo - npml b) zo zo) m (x * n1 + z) = if inside x0 x1 (zo - pad b (top b)) zo x z then m (x * n1 + zo) else m (x * n1 + z)).
  { intros. apply on_row; try lia; unfold pad in *; destruct (absorbing (top b)); lia. }
  assert (U : forall m x0 x1 x z, 0 <= z < n1 -> on (absorbing (bot b)) (copy_row n1 x0 x1 (zo + nz) (zo + nz + npml b) (zo + nz - 1)) m (x * n1 + z) = if inside x0 x1 (zo + nz) (zo + nz + pad b (bot b)) x z then m (x * n1 + (zo + nz - 1)) else m (x * n1 + z)).
  { intros. apply on_row; try lia; unfold pad in *; destruct (absorbing (bot b)); lia. }
  rewrite U, !T, !R', !L by lia. clear U T R' L.
  generalize dependent (pad b (lef b)). intros pl Pl. generalize dependent (pad b (rig b)). intros pr Pr. generalize dependent (pad b (top b)). intros pt Ht Pt. generalize dependent (pad b (bot b)). intros pu Hu Pu.
  split_ifs; unfold inside in *; try (exfalso; lia); f_equal; (f_equal; [f_equal|]; unfold nearest; lia).
Qed.
Lemma extend_p_ok xo zo m : pad b (top b) <= zo -> zo + nz + pad b (bot b) <= n1 ->
  extended n1 xo zo nx nz (pad b (lef b)) (pad b (rig b)) (pad b (top b)) (pad b (bot b)) m
    (extend_p nx nz iorder b (xo - pad b (lef b)) (xo + nx + pad b (rig b)) (zo - pad b (top b)) (zo + nz + pad b (bot b)) m).
Proof.
  intros Ht Hu x z Hz'. unfold extend_p. fold n1.
  pose proof (pad_pos (lef b)) as Pl. pose proof (pad_pos (rig b)) as Pr. pose proof (pad_pos (top b)) as Pt. pose proof (pad_pos (bot b)) as Pu.
  set (z0 := zo - pad b (top b)). set (z1 := zo + nz + pad b (bot b)).
  assert (L : forall m x z, 0 <= z < n1 -> on (absorbing (lef b)) (copy_col n1 (xo - pad b (lef b)) (xo - pad b (lef b) + npml b) z0 z1 (xo - pad b (lef b) + npml b)) m (x * n1 + z) = if inside (xo - pad b (lef b)) xo z0 z1 x z then m (xo * n1 + z) else m (x * n1 + z)).
  { intros m' x' z' Hz1. rewrite on_ok. unfold pad. destruct (absorbing (lef b)).
    - replace (xo - npml b + npml b) with xo by ring. apply copy_col_ok; lia.
    - replace (inside (xo - 0) xo z0 z1 x' z') with false by (unfold inside; lia). reflexivity. }
  assert (R' : forall m x z, 0 <= z < n1 -> on (absorbing (rig b)) (copy_col n1 (xo + nx + pad b (rig b) - npml b) (xo + nx + pad b (rig b)) z0 z1 (xo + nx + pad b (rig b) - npml b - 1)) m (x * n1 + z) = if inside (xo + nx) (xo + nx + pad b (rig b)) z0 z1 x z then m ((xo + nx - 1) * n1 + z) else m (x * n1 + z)).
  { intros m' x' z' Hz1. rewrite on_ok. unfold pad. destruct (absorbing (rig b)).
    - replace (xo + nx + npml b - npml b) with (xo + nx) by ring. apply copy_col_ok; lia.
    - replace (inside (xo + nx) (xo + nx + 0) z0 z1 x' z') with false by (unfold inside; lia). reflexivity. }
  assert (T : forall m x0 x1 x z, 0 <= z < n1 -> on (absorbing (top b)) (copy_row n1 x0 x1 z0 (z0 + npml b) (z0 + npml b)) m (x * n1 + z) = if inside x0 x1 z0 zo x z then m (x * n1 + zo) else m (x * n1 + z)).
  { intros m' x0 x1 x' z' Hz1. rewrite on_ok. unfold z0, pad in *. destruct (absorbing (top b)).
    - replace (zo - npml b + npml b) with zo by ring. apply copy_row_ok; lia.
    - replace (inside x0 x1 (zo - 0) zo x' z') with false by (unfold inside; lia). reflexivity. }
  assert (U : forall m x0 x1 x z, 0 <= z < n1 -> on (absorbing (bot b)) (copy_row n1 x0 x1 (z1 - npml b) z1 (z1 - npml b - 1)) m (x * n1 + z) = if inside x0 x1 (zo + nz) z1 x z then m (x * n1 + (zo + nz - 1)) else m (x * n1 + z)).
  { intros m' x0 x1 x' z' Hz1. rewrite on_ok. unfold z1, pad in *. destruct (absorbing (bot b)).
    - replace (zo + nz + npml b - npml b) with (zo + nz) by ring. apply copy_row_ok; lia.
    - replace (inside x0 x1 (zo + nz) (zo + nz + 0) x' z') with false by (unfold inside; lia). reflexivity. }
  rewrite U, !T, !R', !L by lia. clear U T R' L. unfold z0, z1. clear z0 z1.
  generalize dependent (pad b (lef b)). intros pl Pl. generalize dependent (pad b (rig b)). intros pr Pr. generalize dependent (pad b (top b)). intros pt Ht Pt. generalize dependent (pad b (bot b)). intros pu Hu Pu.
  split_ifs; unfold inside in *; try (exfalso; lia); f_equal; (f_equal; [f_equal|]; unfold nearest; lia).
Qed.
(** the PML block leaves the model alone, when it uses the first and last column and row of the array *)
Lemma pml_ok xo zo m x z : startPz nx nz iorder b <= zo -> 0 <= zo -> zo + nz <= n1 -> 0 <= z < n1 -> inside 0 nx 0 nz (x - xo) (z - zo) = true ->
  pml nx nz iorder b xo (xo + nx - 1) zo (zo + nz - 1) m (x * n1 + z) = m (x * n1 + z).
Proof.
  intros Hs H0 H1 Hz' I. unfold pml. fold n1. unfold inside in I.
  rewrite on_ok. destruct (bot b =? 2).
  - rewrite copy_row_ok by lia. replace (inside 0 _ (zo + nz - 1 + 1) n1 x z) with false by (unfold inside; lia). rewrite on_ok. destruct (top b =? 2).
    + rewrite copy_row_ok by lia. replace (inside 0 _ 0 (startPz nx nz iorder b) x z) with false by (unfold inside; lia). rewrite on_ok. destruct (rig b =? 2).
      * rewrite copy_col_ok by lia. replace (inside (xo + nx - 1 + 1) _ 0 n1 x z) with false by (unfold inside; lia). rewrite on_ok. destruct (lef b =? 2); [|reflexivity]. rewrite copy_col_ok by lia. now replace (inside 0 xo 0 n1 x z) with false by (unfold inside; lia).
      * rewrite on_ok. destruct (lef b =? 2); [|reflexivity]. rewrite copy_col_ok by lia. now replace (inside 0 xo 0 n1 x z) with false by (unfold inside; lia).
    + rewrite on_ok. destruct (rig b =? 2).
      * rewrite copy_col_ok by lia. replace (inside (xo + nx - 1 + 1) _ 0 n1 x z) with false by (unfold inside; lia). rewrite on_ok. destruct (lef b =? 2); [|reflexivity]. rewrite copy_col_ok by lia. now replace (inside 0 xo 0 n1 x z) with false by (unfold inside; lia).
      * rewrite on_ok. destruct (lef b =? 2); [|reflexivity]. rewrite copy_col_ok by lia. now replace (inside 0 xo 0 n1 x z) with false by (unfold inside; lia).
  - rewrite on_ok. destruct (top b =? 2).
    + rewrite copy_row_ok by lia. replace (inside 0 _ 0 (startPz nx nz iorder b) x z) with false by (unfold inside; lia). rewrite on_ok. destruct (rig b =? 2).
      * rewrite copy_col_ok by lia. replace (inside (xo + nx - 1 + 1) _ 0 n1 x z) with false by (unfold inside; lia). rewrite on_ok. destruct (lef b =? 2); [|reflexivity]. rewrite copy_col_ok by lia. now replace (inside 0 xo 0 n1 x z) with false by (unfold inside; lia).
      * rewrite on_ok. destruct (lef b =? 2); [|reflexivity]. rewrite copy_col_ok by lia. now replace (inside 0 xo 0 n1 x z) with false by (unfold inside; lia).
    + rewrite on_ok. destruct (rig b =? 2).
      * rewrite copy_col_ok by lia. replace (inside (xo + nx - 1 + 1) _ 0 n1 x z) with false by (unfold inside; lia). rewrite on_ok. destruct (lef b =? 2); [|reflexivity]. rewrite copy_col_ok by lia. now replace (inside 0 xo 0 n1 x z) with false by (unfold inside; lia).
      * rewrite on_ok. destruct (lef b =? 2); [|reflexivity]. rewrite copy_col_ok by lia. now replace (inside 0 xo 0 n1 x z) with false by (unfold inside; lia).
Qed.
(** and no cell outside the array is written *)
Lemma pml_outside xo xr zo zb m x z : 0 <= xo <= nax (layout nx nz iorder b) -> 0 <= xr -> 0 <= zo < n1 -> 0 <= zb < n1 -> startPz nx nz iorder b <= zo -> 0 <= z < n1 -> ~ 0 <= x < nax (layout nx nz iorder b) ->
  pml nx nz iorder b xo xr zo zb m (x * n1 + z) = m (x * n1 + z).
Proof.
  intros H1 H2 H3 H4 H5 Hz' Ho. unfold pml. fold n1. set (w := nax _) in *.
  assert (A : forall m, on (lef b =? 2) (copy_col n1 0 xo 0 n1 xo) m (x * n1 + z) = m (x * n1 + z)). { intros. rewrite on_ok. destruct (lef b =? 2); [|reflexivity]. rewrite copy_col_ok by lia. now replace (inside 0 xo 0 n1 x z) with false by (unfold inside; lia). }
  assert (B : forall m, on (rig b =? 2) (copy_col n1 (xr + 1) w 0 n1 xr) m (x * n1 + z) = m (x * n1 + z)). { intros. rewrite on_ok. destruct (rig b =? 2); [|reflexivity]. rewrite copy_col_ok by lia. now replace (inside (xr + 1) w 0 n1 x z) with false by (unfold inside; lia). }
  assert (C : forall m, on (top b =? 2) (copy_row n1 0 w 0 (startPz nx nz iorder b) zo) m (x * n1 + z) = m (x * n1 + z)). { intros. rewrite on_ok. destruct (top b =? 2); [|reflexivity]. rewrite copy_row_ok by lia. now replace (inside 0 w 0 (startPz nx nz iorder b) x z) with false by (unfold inside; lia). }
  assert (D : forall m, on (bot b =? 2) (copy_row n1 0 w (zb + 1) n1 zb) m (x * n1 + z) = m (x * n1 + z)). { intros. rewrite on_ok. destruct (bot b =? 2); [|reflexivity]. rewrite copy_row_ok by lia. now replace (inside 0 w (zb + 1) n1 x z) with false by (unfold inside; lia). }
  now rewrite D, C, B, A.
Qed.
(** without PML sides it does nothing *)
Lemma pml_none xo xr zo zb m : lef b <> 2 -> rig b <> 2 -> top b <> 2 -> bot b <> 2 -> pml nx nz iorder b xo xr zo zb m = m.
Proof. intros. unfold pml, on. replace (lef b =? 2) with false by lia. replace (rig b =? 2) with false by lia. replace (top b =? 2) with false by lia. now replace (bot b =? 2) with false by lia. Qed.
End EXT.
