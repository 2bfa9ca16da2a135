(** Properties of padmodel (C96). *)
From Coq Require Import ZArith Reals List Bool Lia Lra.
From Verif Require Import ListAux FdKernels FdProofs FdOutputProofs Marchenko PropertiesDft SmoothSpec Padmodel.
Import ListNotations.
Local Open Scope Z_scope.

Definition sizes_ok (p : pads) : Prop := 1 <= nx p /\ 1 <= ny p /\ 1 <= nz p /\ 0 <= nxpad p /\ 0 <= nypad p /\ 0 <= nzpad p.
(** a cell of the padded model *)
Definition cell_of (p : pads) (c : Z * Z * Z) : Prop := let '(iy, ix, iz) := c in 0 <= iy < ny p + 2 * nypad p /\ 0 <= ix < nx p + 2 * nxpad p /\ 0 <= iz < nz p + 2 * nzpad p.
Lemma addr_inj p c c' : cell_of p c -> cell_of p c' -> addr p c = addr p c' -> c = c'.
Proof.
  destruct c as [[y x] z], c' as [[y' x'] z']. unfold cell_of, addr, nxout, nyout, nzout. intros (A1 & A2 & A3) (B1 & B2 & B3) E.
  destruct (Z.div_mod_unique (nz p + 2 * nzpad p) (y * (nx p + 2 * nxpad p) + x) (y' * (nx p + 2 * nxpad p) + x') z z') as [E1 E2]; [lia|lia| |].
  { transitivity (y * (nx p + 2 * nxpad p) * (nz p + 2 * nzpad p) + x * (nz p + 2 * nzpad p) + z); [ring|]. rewrite E. ring. }
  destruct (Z.div_mod_unique (nx p + 2 * nxpad p) y y' x x') as [E3 E4]; [lia|lia| |congruence].
  transitivity (y * (nx p + 2 * nxpad p) + x); [ring|]. rewrite E1. ring.
Qed.
(** ** auxiliary: assignments in order *)
Lemma copies_ok p (f : Z * Z * Z -> R) (K : Z * Z * Z -> Prop) l : forall o, (forall c, K c -> cell_of p c) -> (forall d s, In (d, s) l -> cell_of p d /\ K s /\ f d = f s) -> (forall c, K c -> o (addr p c) = f c) ->
  forall c, K c \/ In c (map fst l) -> run_copies p l o (addr p c) = f c.
Proof.
  intros o HK Hl Ho. assert (G : forall l', (forall d s, In (d, s) l' -> cell_of p d /\ K s /\ f d = f s) -> forall o (D : Z * Z * Z -> Prop), (forall c, D c -> cell_of p c) -> (forall c, K c -> o (addr p c) = f c) -> (forall c, D c -> o (addr p c) = f c) ->
    forall c, K c \/ D c \/ In c (map fst l') -> run_copies p l' o (addr p c) = f c).
  { clear o Ho Hl l. induction l' as [|[d s] l IH]; intros Hl o D HD Ho Do c Hc.
    - cbn. destruct Hc as [Hc|[Hc|[]]]; [now apply Ho|now apply Do].
    - destruct (Hl d s (or_introl eq_refl)) as (I1 & I2 & I3). unfold run_copies. cbn [fold_left]. fold (run_copies p l (upd o (addr p d) (o (addr p s)))).
      assert (U : forall c, cell_of p c -> o (addr p c) = f c \/ c = d -> upd o (addr p d) (o (addr p s)) (addr p c) = f c).
      { intros c' Ic H. rewrite upd_eq. destruct (Z.eqb_spec (addr p c') (addr p d)) as [E|E].
        - apply addr_inj in E; [|exact Ic|exact I1]. subst c'. rewrite Ho by exact I2. symmetry. exact I3.
        - destruct H as [H|H]; [exact H|subst; congruence]. }
      apply (IH (fun d s H => Hl d s (or_intror H)) _ (fun c => D c \/ c = d)).
      + intros c' [H|H]; [now apply HD|now subst].
      + intros c' H. apply U; [now apply HK|left; now apply Ho].
      + intros c' [H|H]; [apply U; [now apply HD|left; now apply Do]|subst; apply U; [exact I1|now right]].
      + cbn [map fst In] in Hc. destruct Hc as [H|[H|[H|H]]]; auto. }
  intros c Hc. apply (G l Hl o (fun _ => False)); try tauto.
Qed.
Lemma copies_app p l m o : run_copies p (l ++ m) o = run_copies p m (run_copies p l o).
Proof. unfold run_copies. apply fold_left_app. Qed.
(** the data inside *)
Lemma place_ok p indata : sizes_ok p -> forall iy ix iz, cell_of p (iy, ix, iz) -> place p indata (addr p (iy, ix, iz)) =
  if (nypad p <=? iy) && (iy <? nypad p + ny p) && ((nxpad p <=? ix) && (ix <? nxpad p + nx p)) && ((nzpad p <=? iz) && (iz <? nzpad p + nz p)) then indata ((iy - nypad p) * nx p * nz p + (ix - nxpad p) * nz p + (iz - nzpad p)) else 0%R.
Proof.
  intros (S1 & S2 & S3 & S4 & S5 & S6) iy ix iz Ic. unfold place. set (l := flat_map _ _).
  assert (Hl : forall a b c, In (a, b, c) l <-> 0 <= a < ny p /\ 0 <= b < nx p /\ 0 <= c < nz p).
  { intros a b c. unfold l. rewrite in_flat_map. split.
    - intros (y & Hy & H). apply in_flat_map in H. destruct H as (x & Hx & H). apply in_map_iff in H. destruct H as (z & E & Hz). apply in_range in Hx, Hy, Hz. inversion E; subst. lia.
    - intros H. exists a. split; [apply in_range; lia|]. apply in_flat_map. exists b. split; [apply in_range; lia|]. apply in_map_iff. exists c. split; [reflexivity|apply in_range; lia]. }
  set (v := fun '((a, b, c) : Z * Z * Z) => indata (a * nx p * nz p + b * nz p + c)). set (dst := fun '((a, b, c) : Z * Z * Z) => (a + nypad p, b + nxpad p, c + nzpad p)).
  assert (G : forall l' o, (forall q, In q l' -> In q l) -> fold_left (fun o '(iy, ix, iz) => upd o (addr p (iy + nypad p, ix + nxpad p, iz + nzpad p)) (indata (iy * nx p * nz p + ix * nz p + iz))) l' o (addr p (iy, ix, iz)) =
    if existsb (fun '(a, b, c) => (a + nypad p =? iy) && (b + nxpad p =? ix) && (c + nzpad p =? iz)) l' then indata ((iy - nypad p) * nx p * nz p + (ix - nxpad p) * nz p + (iz - nzpad p)) else o (addr p (iy, ix, iz))).
  { induction l' as [|[[a b] c] l' IH]; intros o Hin; [reflexivity|]. cbn [fold_left existsb]. rewrite IH by (intros q Hq; apply Hin; now right).
    assert (Hq : In (a, b, c) l) by (apply Hin; now left). apply Hl in Hq. destruct (existsb _ l'); [rewrite orb_true_r; reflexivity|]. rewrite orb_false_r, upd_eq.
    destruct (Z.eqb_spec (addr p (iy, ix, iz)) (addr p (a + nypad p, b + nxpad p, c + nzpad p))) as [E|E].
    - apply addr_inj in E; [|exact Ic|unfold cell_of; lia]. inversion E; subst. rewrite !Z.eqb_refl. cbn [andb]. f_equal. rewrite !Z.add_simpl_r. reflexivity.
    - destruct (Z.eqb_spec (a + nypad p) iy), (Z.eqb_spec (b + nxpad p) ix), (Z.eqb_spec (c + nzpad p) iz); cbn [andb]; try reflexivity. exfalso. apply E. congruence. }
  rewrite (G l) by auto. destruct ((nypad p <=? iy) && (iy <? nypad p + ny p) && ((nxpad p <=? ix) && (ix <? nxpad p + nx p)) && ((nzpad p <=? iz) && (iz <? nzpad p + nz p))) eqn:B.
  - rewrite !andb_true_iff, !Z.leb_le, !Z.ltb_lt in B. assert (existsb (fun '(a, b, c) => (a + nypad p =? iy) && (b + nxpad p =? ix) && (c + nzpad p =? iz)) l = true) as ->; [|reflexivity].
    apply existsb_exists. exists (iy - nypad p, ix - nxpad p, iz - nzpad p). split; [apply Hl; lia|]. rewrite !Z.sub_add, !Z.eqb_refl. reflexivity.
  - destruct (existsb _ l) eqn:E; [|reflexivity]. apply existsb_exists in E. destruct E as ([[a b] c] & Hq & E). apply Hl in Hq. rewrite !andb_true_iff, !Z.eqb_eq in E. exfalso. apply not_true_iff_false in B. apply B. rewrite !andb_true_iff, !Z.leb_le, !Z.ltb_lt. lia.
Qed.
(** ** C96 *)
(** the value of the input at the cell nearest to (iy, ix, iz) of the padded model *)
Definition nearest (p : pads) (indata : Z -> R) (c : Z * Z * Z) : R := let '(iy, ix, iz) := c in indata (clamp (ny p) (iy - nypad p) * nx p * nz p + clamp (nx p) (ix - nxpad p) * nz p + clamp (nz p) (iz - nzpad p)).
Definition inside (p : pads) (c : Z * Z * Z) : Prop := let '(iy, ix, iz) := c in nypad p <= iy < nypad p + ny p /\ nxpad p <= ix < nxpad p + nx p /\ nzpad p <= iz < nzpad p + nz p.
Lemma in_down n x : In x (down n) <-> 0 <= x < n.
Proof. unfold down. rewrite <- in_rev, in_range. reflexivity. Qed.
Section EDGES.
Variables (p : pads) (indata : Z -> R).
Hypothesis S : sizes_ok p.
Let f := nearest p indata.
Let rowA (iz : Z) := flat_map (fun iy => map (fun ix => ((iy, ix, iz), (iy, nxpad p, iz))) (down (nxpad p)) ++ map (fun ix => ((iy, ix, iz), (iy, nxpad p + nx p - 1, iz))) (range (nxpad p + nx p) (nxout p))) (range (nypad p) (ny p + nypad p)).
Let rowB (iz : Z) := flat_map (fun ix => map (fun iy => ((iy, ix, iz), (nypad p, ix, iz))) (down (nypad p)) ++ map (fun iy => ((iy, ix, iz), (nypad p + ny p - 1, ix, iz))) (range (nypad p + ny p) (nyout p))) (range 0 (nxout p)).
Lemma in_rowA iz d s : In (d, s) (rowA iz) <-> exists iy ix, d = (iy, ix, iz) /\ nypad p <= iy < ny p + nypad p /\ (0 <= ix < nxpad p /\ s = (iy, nxpad p, iz) \/ nxpad p + nx p <= ix < nxout p /\ s = (iy, nxpad p + nx p - 1, iz)).
Proof.
  unfold rowA. rewrite in_flat_map. split.
  - intros (iy & Hy & H). apply in_range in Hy. apply in_app_or in H. destruct H as [H|H]; apply in_map_iff in H; destruct H as (ix & E & Hx); inversion E; subst; exists iy, ix; (split; [reflexivity|]); (split; [lia|]); [left; apply in_down in Hx|right; apply in_range in Hx]; split; (lia || reflexivity).
  - intros (iy & ix & -> & Hy & H). exists iy. split; [apply in_range; lia|]. apply in_or_app. destruct H as [[H ->]|[H ->]]; [left|right]; apply in_map_iff; exists ix; (split; [reflexivity|]); [apply in_down|apply in_range]; lia.
Qed.
Lemma in_rowB iz d s : In (d, s) (rowB iz) <-> exists iy ix, d = (iy, ix, iz) /\ 0 <= ix < nxout p /\ (0 <= iy < nypad p /\ s = (nypad p, ix, iz) \/ nypad p + ny p <= iy < nyout p /\ s = (nypad p + ny p - 1, ix, iz)).
Proof.
  unfold rowB. rewrite in_flat_map. split.
  - intros (ix & Hx & H). apply in_range in Hx. apply in_app_or in H. destruct H as [H|H]; apply in_map_iff in H; destruct H as (iy & E & Hy); inversion E; subst; exists iy, ix; (split; [reflexivity|]); (split; [lia|]); [left; apply in_down in Hy|right; apply in_range in Hy]; split; (lia || reflexivity).
  - intros (iy & ix & -> & Hx & H). exists ix. split; [apply in_range; lia|]. apply in_or_app. destruct H as [[H ->]|[H ->]]; [left|right]; apply in_map_iff; exists iy; (split; [reflexivity|]); [apply in_down|apply in_range]; lia.
Qed.
Lemma dst_in (l : list ((Z * Z * Z) * (Z * Z * Z))) d s : In (d, s) l -> In d (map fst l).
Proof. intros H. apply (in_map fst) in H. exact H. Qed.
Lemma inside_cell c : inside p c -> cell_of p c.
Proof. destruct c as [[y x] z]. unfold inside, cell_of. unfold sizes_ok in S. lia. Qed.
Lemma sides_ok zs : forall o (D : Z -> Prop), (forall z, In z zs -> nzpad p <= z < nzpad p + nz p) -> (forall z, D z -> 0 <= z < nzout p) -> (forall c, inside p c -> o (addr p c) = f c) -> (forall y x z, cell_of p (y, x, z) -> D z -> o (addr p (y, x, z)) = f (y, x, z)) ->
  forall y x z, cell_of p (y, x, z) -> D z \/ In z zs -> run_copies p (flat_map (fun iz => rowA iz ++ rowB iz) zs) o (addr p (y, x, z)) = f (y, x, z).
Proof.
  pose proof S as S0. destruct S0 as (S1 & S2 & S3 & S4 & S5 & S6). induction zs as [|iz zs IH]; intros o D Hz HD Hin Ho y x z Ic Hc.
  - cbn. destruct Hc as [Hc|[]]. now apply Ho.
  - cbn [flat_map]. rewrite !copies_app. assert (Bz : nzpad p <= iz < nzpad p + nz p) by (apply Hz; now left).
    set (K := fun c : Z * Z * Z => inside p c \/ (cell_of p c /\ D (snd c))). set (K' := fun c => K c \/ In c (map fst (rowA iz))).
    assert (KC : forall c, K c -> cell_of p c) by (intros c [H|[H _]]; [now apply inside_cell|exact H]).
    assert (OK : forall c, K c -> o (addr p c) = f c) by (intros [[y0 x0] z0] [H|[H1 H2]]; [now apply Hin|now apply Ho]).
    assert (HA : forall d s, In (d, s) (rowA iz) -> cell_of p d /\ K s /\ f d = f s).
    { intros d s H. apply in_rowA in H. destruct H as (iy & ix & -> & Hy & H). unfold nxout in H. split; [unfold cell_of; lia|]. split.
      - left. destruct H as [[H ->]|[H ->]]; unfold inside; lia.
      - unfold f, nearest. destruct H as [[H ->]|[H ->]]; do 3 f_equal; unfold clamp; f_equal; lia. }
    assert (KC' : forall c, K' c -> cell_of p c). { intros c [H|H]; [now apply KC|]. apply in_map_iff in H. destruct H as ((d, s) & <- & H). now apply HA in H. }
    pose proof (copies_ok p f K (rowA iz) o KC HA OK) as RA. set (oA := run_copies p (rowA iz) o) in *.
    assert (HB : forall d s, In (d, s) (rowB iz) -> cell_of p d /\ K' s /\ f d = f s).
    { intros d s H. apply in_rowB in H. destruct H as (iy & ix & -> & Hx & H). unfold nxout, nyout in *. split; [unfold cell_of; lia|]. split.
      - assert (Q : forall yy, nypad p <= yy < nypad p + ny p -> K' (yy, ix, iz)).
        { intros yy Hyy. destruct (Z_lt_dec ix (nxpad p)) as [L|L]; [right; apply (dst_in _ _ (yy, nxpad p, iz)); apply in_rowA; exists yy, ix; unfold nxout; split; [reflexivity|]; split; [lia|]; left; split; [lia|reflexivity]|].
          destruct (Z_lt_dec ix (nxpad p + nx p)) as [L2|L2]; [left; left; unfold inside; lia|right; apply (dst_in _ _ (yy, nxpad p + nx p - 1, iz)); apply in_rowA; exists yy, ix; unfold nxout; split; [reflexivity|]; split; [lia|]; right; split; [lia|reflexivity]]. }
        destruct H as [[H ->]|[H ->]]; apply Q; lia.
      - unfold f, nearest. destruct H as [[H ->]|[H ->]]; do 4 f_equal; unfold clamp; f_equal; lia. }
    pose proof (copies_ok p f K' (rowB iz) oA KC' HB RA) as RB. set (oB := run_copies p (rowB iz) oA) in *.
    apply (IH oB (fun z => D z \/ z = iz)).
    + intros z' H. apply Hz. now right.
    + intros z' [H|H]; [now apply HD|]. unfold nzout. lia.
    + intros c H. apply RB. left. left. now left.
    + intros y' x' z' Ic' [H|H].
      * apply RB. left. left. right. split; [exact Ic'|exact H].
      * subst z'. apply RB. unfold cell_of in Ic'. destruct (Z_lt_dec y' (nypad p)) as [L|L]; [right; apply (dst_in _ _ (nypad p, x', iz)); apply in_rowB; exists y', x'; unfold nxout, nyout; split; [reflexivity|]; split; [lia|]; left; split; [lia|reflexivity]|].
        destruct (Z_lt_dec y' (nypad p + ny p)) as [L2|L2]; [|right; apply (dst_in _ _ (nypad p + ny p - 1, x', iz)); apply in_rowB; exists y', x'; unfold nxout, nyout; split; [reflexivity|]; split; [lia|]; right; split; [lia|reflexivity]].
        left. destruct (Z_lt_dec x' (nxpad p)) as [L3|L3]; [right; apply (dst_in _ _ (y', nxpad p, iz)); apply in_rowA; exists y', x'; unfold nxout; split; [reflexivity|]; split; [lia|]; left; split; [lia|reflexivity]|].
        destruct (Z_lt_dec x' (nxpad p + nx p)) as [L4|L4]; [left; left; unfold inside; lia|right; apply (dst_in _ _ (y', nxpad p + nx p - 1, iz)); apply in_rowA; exists y', x'; unfold nxout; split; [reflexivity|]; split; [lia|]; right; split; [lia|reflexivity]].
    + exact Ic.
    + destruct Hc as [H|[H|H]]; auto.
Qed.
Lemma in_layers (a b : Z) (src : Z -> Z -> Z * Z * Z) d s : In (d, s) (flat_map (fun iz => flat_map (fun iy => map (fun ix => ((iy, ix, iz), src iy ix)) (range 0 (nxout p))) (range 0 (nyout p))) (range a b)) <->
  exists iy ix iz, d = (iy, ix, iz) /\ s = src iy ix /\ 0 <= iy < nyout p /\ 0 <= ix < nxout p /\ a <= iz < b.
Proof.
  rewrite in_flat_map. split.
  - intros (iz & Hz & H). apply in_flat_map in H. destruct H as (iy & Hy & H). apply in_map_iff in H. destruct H as (ix & E & Hx). apply in_range in Hx, Hy, Hz. inversion E; subst. exists iy, ix, iz. auto.
  - intros (iy & ix & iz & -> & -> & Hy & Hx & Hz). exists iz. split; [apply in_range; lia|]. apply in_flat_map. exists iy. split; [apply in_range; lia|]. apply in_map_iff. exists ix. split; [reflexivity|apply in_range; lia].
Qed.
(** C96: padding with the edges: sideways every cell gets the nearest value of the input; below row nz - 1 of the padded model all rows repeat that row. *)
Theorem C96_edges value iy ix iz : cell_of p (iy, ix, iz) -> padmodel false value p indata (addr p (iy, ix, iz)) = nearest p indata (iy, ix, Z.min iz (nz p - 1)).
Proof.
  pose proof S as S0. destruct S0 as (S1 & S2 & S3 & S4 & S5 & S6). intros Ic. unfold padmodel. cbv zeta. set (o := place p indata).
  assert (R1 : forall y x z, cell_of p (y, x, z) -> nzpad p <= z < nz p + nzpad p -> run_copies p (side_copies p) o (addr p (y, x, z)) = f (y, x, z)).
  { intros y x z Ic' Hz. apply (sides_ok (range (nzpad p) (nz p + nzpad p)) o (fun _ => False)); try tauto.
    - intros z' H. apply in_range in H. lia.
    - intros [[y' x'] z'] H. unfold o. rewrite place_ok by (try assumption; now apply inside_cell). unfold inside in H.
      destruct (Z.leb_spec (nypad p) y'), (Z.ltb_spec y' (nypad p + ny p)), (Z.leb_spec (nxpad p) x'), (Z.ltb_spec x' (nxpad p + nx p)), (Z.leb_spec (nzpad p) z'), (Z.ltb_spec z' (nzpad p + nz p)); cbn [andb]; try lia. unfold f, nearest, clamp. rewrite !Z.min_r, !Z.max_r by lia. reflexivity.
    - right. apply in_range. lia. }
  set (o1 := run_copies p (side_copies p) o) in *.
  assert (R2 : forall c, (cell_of p c /\ nzpad p <= snd c < nz p + nzpad p) \/ In c (map fst (top_copies p)) -> run_copies p (top_copies p) o1 (addr p c) = f c).
  { apply (copies_ok p f (fun c => cell_of p c /\ nzpad p <= snd c < nz p + nzpad p)).
    - intros c [H _]. exact H.
    - intros d s H. apply (in_layers 0 (nzpad p) (fun iy ix => (iy, ix, nzpad p))) in H. destruct H as (y & x & z & -> & -> & Hy & Hx & Hz). unfold nxout, nyout in *. split; [unfold cell_of; lia|]. split; [unfold cell_of; cbn [snd]; lia|].
      unfold f, nearest. do 2 f_equal. unfold clamp. lia.
    - intros [[y x] z] [H1 H2]. now apply R1. }
  set (o2 := run_copies p (top_copies p) o1) in *. set (f' := fun '((y, x, z) : Z * Z * Z) => f (y, x, Z.min z (nz p - 1))).
  change (nearest p indata (iy, ix, Z.min iz (nz p - 1))) with (f' (iy, ix, iz)).
  apply (copies_ok p f' (fun c => cell_of p c /\ 0 <= snd c < nz p)).
  - intros c [H _]. exact H.
  - intros d s H. apply (in_layers (nz p) (nzout p) (fun iy ix => (iy, ix, nz p - 1))) in H. destruct H as (y & x & z & -> & -> & Hy & Hx & Hz). unfold nxout, nyout, nzout in *. split; [unfold cell_of; lia|]. split; [unfold cell_of; cbn [snd]; lia|].
    unfold f'. do 2 f_equal. lia.
  - intros [[y x] z] [H1 H2]. cbn [snd] in H2. unfold f'. rewrite Z.min_l by lia. apply R2. destruct (Z_lt_dec z (nzpad p)) as [L|L].
    + right. apply (dst_in _ _ (y, x, nzpad p)). apply (in_layers 0 (nzpad p) (fun iy ix => (iy, ix, nzpad p))). exists y, x, z. unfold cell_of, nxout, nyout in *. repeat split; lia.
    + left. split; [exact H1|cbn [snd]; lia].
  - destruct (Z_lt_dec iz (nz p)) as [L|L].
    + left. split; [exact Ic|]. cbn [snd]. unfold cell_of in Ic. lia.
    + right. apply (dst_in _ _ (iy, ix, nz p - 1)). apply (in_layers (nz p) (nzout p) (fun iy ix => (iy, ix, nz p - 1))). exists iy, ix, iz. unfold cell_of, nxout, nyout, nzout in *. repeat split; lia.
Qed.
(** C96: without padding in depth this is the nearest value of the input *)
Theorem C96_sideways value iy ix iz : nzpad p = 0 -> cell_of p (iy, ix, iz) -> padmodel false value p indata (addr p (iy, ix, iz)) = nearest p indata (iy, ix, iz).
Proof. intros Hz Ic. rewrite C96_edges by exact Ic. unfold nearest, cell_of in *. rewrite Hz in *. do 2 f_equal. unfold clamp. lia. Qed.
(** C96: padding with a constant: cells beside the model and all rows from nz on get the constant; of the others those above the model are zero, the rest has the input. *)
Theorem C96_constant value iy ix iz : cell_of p (iy, ix, iz) -> padmodel true value p indata (addr p (iy, ix, iz)) =
  if (nz p <=? iz) || negb ((nypad p <=? iy) && (iy <? nypad p + ny p) && ((nxpad p <=? ix) && (ix <? nxpad p + nx p))) then value else if iz <? nzpad p then 0%R else nearest p indata (iy, ix, iz).
Proof.
  pose proof S as S0. destruct S0 as (S1 & S2 & S3 & S4 & S5 & S6). intros Ic. unfold padmodel. cbv zeta.
  assert (HC : forall y x z, In (y, x, z) (constant_cells p) <-> (0 <= z < nz p /\ (nypad p <= y < ny p + nypad p /\ (0 <= x < nxpad p \/ nxpad p + nx p <= x < nxout p) \/ 0 <= x < nxout p /\ (0 <= y < nypad p \/ nypad p + ny p <= y < nyout p))) \/ (nz p <= z < nzout p /\ 0 <= y < nyout p /\ 0 <= x < nxout p)).
  { intros y x z. unfold constant_cells. rewrite in_app_iff, !in_flat_map. split.
    - intros [(z' & Hz & H)|(z' & Hz & H)]; apply in_range in Hz.
      + left. apply in_app_or in H. destruct H as [H|H]; apply in_flat_map in H; destruct H as (w & Hw & H); apply in_range in Hw; apply in_app_or in H; destruct H as [H|H]; apply in_map_iff in H; destruct H as (u & E & Hu); apply in_range in Hu; inversion E; subst; lia.
      + right. apply in_flat_map in H. destruct H as (w & Hw & H). apply in_map_iff in H. destruct H as (u & E & Hu). apply in_range in Hw, Hu. inversion E; subst. lia.
    - intros [[Hz H]|(Hz & Hy & Hx)].
      + left. exists z. split; [apply in_range; lia|]. apply in_or_app. destruct H as [[Hy H]|[Hx H]]; [left|right]; apply in_flat_map; [exists y|exists x]; (split; [apply in_range; lia|]); apply in_or_app; (destruct H as [H|H]; [left|right]); apply in_map_iff; [exists x|exists x|exists y|exists y]; (split; [reflexivity|apply in_range; lia]).
      + right. exists z. split; [apply in_range; lia|]. apply in_flat_map. exists y. split; [apply in_range; lia|]. apply in_map_iff. exists x. split; [reflexivity|apply in_range; lia]. }
  assert (G : forall l o, (forall c, In c l -> cell_of p c) -> (In (iy, ix, iz) l -> fold_left (fun o c => upd o (addr p c) value) l o (addr p (iy, ix, iz)) = value) /\ (~ In (iy, ix, iz) l -> fold_left (fun o c => upd o (addr p c) value) l o (addr p (iy, ix, iz)) = o (addr p (iy, ix, iz)))).
  { induction l as [|c l IH]; intros o Hl; [split; [intros []|reflexivity]|]. cbn [fold_left]. destruct (IH (upd o (addr p c) value) (fun c' H => Hl c' (or_intror H))) as [I1 I2].
    assert (U : c = (iy, ix, iz) -> upd o (addr p c) value (addr p (iy, ix, iz)) = value) by (intros ->; rewrite upd_eq, Z.eqb_refl; reflexivity).
    assert (D : forall a b : Z * Z * Z, {a = b} + {a <> b}) by (decide equality; [apply Z.eq_dec|decide equality; apply Z.eq_dec]). split.
    - intros H. destruct (in_dec D (iy, ix, iz) l) as [Hi|Hi]; [now apply I1|]. rewrite I2 by exact Hi. destruct H as [H|H]; [now apply U|contradiction].
    - intros H. rewrite I2 by (intros Hi; apply H; now right). rewrite upd_eq. destruct (Z.eqb_spec (addr p (iy, ix, iz)) (addr p c)) as [E|E]; [|reflexivity]. apply addr_inj in E; [|exact Ic|apply Hl; now left]. exfalso. apply H. left. now symmetry. }
  destruct (G (constant_cells p) (place p indata)) as [G1 G2].
  { intros [[y x] z] H. apply HC in H. unfold cell_of, nxout, nyout, nzout in *. lia. }
  specialize (HC iy ix iz). unfold cell_of, nxout, nyout, nzout in *.
  destruct ((nz p <=? iz) || negb ((nypad p <=? iy) && (iy <? nypad p + ny p) && ((nxpad p <=? ix) && (ix <? nxpad p + nx p)))) eqn:B.
  - apply G1. apply HC. destruct (Z.leb_spec (nz p) iz), (Z.leb_spec (nypad p) iy), (Z.ltb_spec iy (nypad p + ny p)), (Z.leb_spec (nxpad p) ix), (Z.ltb_spec ix (nxpad p + nx p)); cbn in B; try discriminate; lia.
  - apply orb_false_iff in B. destruct B as [B1 B2]. apply Z.leb_gt in B1. apply negb_false_iff in B2. rewrite !andb_true_iff, !Z.leb_le, !Z.ltb_lt in B2. rewrite G2 by (rewrite HC; lia). rewrite place_ok by (try assumption; unfold cell_of; lia).
    destruct (Z.leb_spec (nypad p) iy), (Z.ltb_spec iy (nypad p + ny p)), (Z.leb_spec (nxpad p) ix), (Z.ltb_spec ix (nxpad p + nx p)); try lia. cbn [andb]. destruct (Z.leb_spec (nzpad p) iz), (Z.ltb_spec iz (nzpad p)), (Z.ltb_spec iz (nzpad p + nz p)); cbn [andb]; try lia; try reflexivity.
    unfold nearest, clamp. rewrite !Z.min_r, !Z.max_r by lia. reflexivity.
Qed.
End EDGES.
Print Assumptions C96_edges.
Print Assumptions C96_sideways.
Print Assumptions C96_constant.
(** with padding in depth rows of the input are lost, with either way of padding: the deepest row of the model is overwritten *)
Theorem C96_depth_refuted pad value p indata : sizes_ok p -> 1 <= nzpad p -> 2 <= nz p -> (forall y x z, 0 <= y < ny p -> 0 <= x < nx p -> indata (y * nx p * nz p + x * nz p + z) = IZR z) -> value <> IZR (nz p - 1) ->
  padmodel pad value p indata (addr p (nypad p, nxpad p, nzpad p + nz p - 1)) <> nearest p indata (nypad p, nxpad p, nzpad p + nz p - 1).
Proof.
  intros S Hz Hn Hd Hv. pose proof S as S0. destruct S0 as (S1 & S2 & S3 & S4 & S5 & S6). assert (Ic : cell_of p (nypad p, nxpad p, nzpad p + nz p - 1)) by (unfold cell_of; lia).
  assert (N : forall z, nearest p indata (nypad p, nxpad p, z) = IZR (clamp (nz p) (z - nzpad p))) by (intros z; unfold nearest; apply Hd; unfold clamp; lia). rewrite N. replace (clamp (nz p) (nzpad p + nz p - 1 - nzpad p)) with (nz p - 1) by (unfold clamp; lia). destruct pad.
  - rewrite C96_constant by assumption. destruct (Z.leb_spec (nz p) (nzpad p + nz p - 1)); [|lia]. exact Hv.
  - rewrite C96_edges by assumption. rewrite N. intros E. apply eq_IZR in E. unfold clamp in E. lia.
Qed.
Print Assumptions C96_depth_refuted.
Example C96_nonvacuous : sizes_ok (mkPads 2 1 3 1 1 0) /\ padmodel false 0 (mkPads 2 1 3 1 1 0) IZR (addr (mkPads 2 1 3 1 1 0) (2, 3, 1)) = 4%R.
Proof. assert (Sz : sizes_ok (mkPads 2 1 3 1 1 0)) by (unfold sizes_ok; cbn; lia). split; [exact Sz|]. rewrite C96_sideways; [reflexivity|exact Sz|reflexivity|unfold cell_of; cbn; lia]. Qed.
(** every cell that is read or written lies in the array *)
Lemma addr_bounds p c : cell_of p c -> 0 <= addr p c < nyout p * nxout p * nzout p.
Proof.
  destruct c as [[y x] z]. unfold cell_of, addr, nxout, nyout, nzout. set (X := nx p + 2 * nxpad p). set (Y := ny p + 2 * nypad p). set (W := nz p + 2 * nzpad p). intros (A & B & C).
  pose proof (Z.mul_nonneg_nonneg y X ltac:(lia) ltac:(lia)) as P1. pose proof (Z.mul_nonneg_nonneg (y * X) W ltac:(lia) ltac:(lia)) as P2. pose proof (Z.mul_nonneg_nonneg x W ltac:(lia) ltac:(lia)) as P3.
  pose proof (Z.mul_le_mono_nonneg_r (y + 1) Y X ltac:(lia) ltac:(lia)) as P4. pose proof (Z.mul_le_mono_nonneg_r (y * X + x + 1) (Y * X) W ltac:(lia) ltac:(lia)) as P5.
  replace ((y * X + x + 1) * W) with (y * X * W + x * W + W) in P5 by ring. lia.
Qed.
Theorem C96_in_bounds p : sizes_ok p -> (forall d s, In (d, s) (side_copies p ++ top_copies p ++ bottom_copies p) -> 0 <= addr p d < nyout p * nxout p * nzout p /\ 0 <= addr p s < nyout p * nxout p * nzout p) /\ (forall c, In c (constant_cells p) -> 0 <= addr p c < nyout p * nxout p * nzout p).
Proof.
  intros S. pose proof S as S0. destruct S0 as (S1 & S2 & S3 & S4 & S5 & S6). split.
  - intros d s H. assert (G : cell_of p d /\ cell_of p s); [|destruct G; split; now apply addr_bounds]. apply in_app_or in H. destruct H as [H|H]; [|apply in_app_or in H; destruct H as [H|H]].
    + unfold side_copies in H. apply in_flat_map in H. destruct H as (z & Hz & H). apply in_range in Hz. apply in_app_or in H. destruct H as [H|H]; [apply (in_rowA p IZR) in H|apply (in_rowB p IZR) in H]; destruct H as (y & x & -> & H1 & [[H2 ->]|[H2 ->]]); unfold cell_of, nxout, nyout in *; lia.
    + apply (in_layers p IZR 0 (nzpad p) (fun iy ix => (iy, ix, nzpad p))) in H. destruct H as (y & x & z & -> & -> & H). unfold cell_of, nxout, nyout in *. lia.
    + apply (in_layers p IZR (nz p) (nzout p) (fun iy ix => (iy, ix, nz p - 1))) in H. destruct H as (y & x & z & -> & -> & H). unfold cell_of, nxout, nyout, nzout in *. lia.
  - intros c H. apply addr_bounds. unfold constant_cells in H. apply in_app_or in H. unfold cell_of, nxout, nyout, nzout in *. destruct H as [H|H]; apply in_flat_map in H; destruct H as (z & Hz & H); apply in_range in Hz.
    + apply in_app_or in H. destruct H as [H|H]; apply in_flat_map in H; destruct H as (w & Hw & H); apply in_range in Hw; apply in_app_or in H; destruct H as [H|H]; apply in_map_iff in H; destruct H as (u & <- & Hu); apply in_range in Hu; lia.
    + apply in_flat_map in H. destruct H as (w & Hw & H). apply in_map_iff in H. destruct H as (u & <- & Hu). apply in_range in Hw, Hu. lia.
Qed.
Print Assumptions C96_in_bounds.
