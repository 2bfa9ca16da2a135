(** Lemmas about the receiver positions. *)
From Coq Require Import ZArith QArith Qabs List Bool Lia Lqa Setoid.
From Verif Require Import ListAux FdKernels FdProofs FdOutputProofs Marchenko MarchenkoProofs PropertiesMarchenko Makemod MakemodSpec MakemodProofs MakemodProofs2 MakemodProofs3 RecvSpec Recv.
Import ListNotations.
Local Open Scope Z_scope.

Lemma Qltb_false a b : (b <= a)%Q -> Qltb a b = false.
Proof. intros H. unfold Qltb. rewrite (proj2 (Qle_bool_iff b a) H). reflexivity. Qed.
Lemma Qltb_true a b : (a < b)%Q -> Qltb a b = true.
Proof. intros H. unfold Qltb. destruct (Qle_bool b a) eqn:E; [|reflexivity]. apply Qle_bool_iff in E. lra. Qed.
Lemma Qltb_lt a b : Qltb a b = true -> (a < b)%Q.
Proof. unfold Qltb. intros H. apply Qnot_le_lt. intros X. apply Qle_bool_iff in X. rewrite X in H. discriminate. Qed.
Lemma Qltb_ge a b : Qltb a b = false -> (b <= a)%Q.
Proof. unfold Qltb. intros H. apply Qle_bool_iff. now destruct (Qle_bool b a). Qed.
Lemma Qeqb_true a b : (a == b)%Q -> Qeqb a b = true.
Proof. intros H. unfold Qeqb. apply andb_true_iff. rewrite !Qle_bool_iff. lra. Qed.
Lemma Qeqb_eq a b : Qeqb a b = true -> (a == b)%Q.
Proof. unfold Qeqb. intros H. apply andb_true_iff in H. rewrite !Qle_bool_iff in H. lra. Qed.
Lemma Qeqb_false a b : ~ (a == b)%Q -> Qeqb a b = false.
Proof. intros H. destruct (Qeqb a b) eqn:E; [|reflexivity]. now apply Qeqb_eq in E. Qed.

Lemma clamp_id lo hi v : (lo <= v)%Q -> (v <= hi)%Q -> clamp lo hi v = v.
Proof. intros A B. unfold clamp. rewrite (Qltb_false v lo A). cbv zeta. now rewrite (Qltb_false hi v B). Qed.
Lemma crop_id s0 s1 a b : (s0 <= a)%Q -> (a <= b)%Q -> (b <= s1)%Q -> crop s0 s1 a b = Some (a, b).
Proof. intros A B C. unfold crop. rewrite (Qltb_false a s0), (Qltb_false s1 a), (Qltb_false b a), (Qltb_false s1 b) by lra. reflexivity. Qed.
Lemma getpar_in l junk d i : 0 <= i < cnt l -> getpar l junk d i = nth (Z.to_nat i) l 0%Q.
Proof.
  intros H. unfold cnt in H. destruct l as [|a l]; [cbn in H; lia|]. unfold getpar, cnt. rewrite (proj2 (Z.leb_le 0 i)), (proj2 (Z.ltb_lt _ _)) by lia. reflexivity.
Qed.
Lemma nth_map_line {A} (f : line -> A) (L : list line) (i : nat) d l : nth_error L i = Some l -> nth i (map f L) d = f l.
Proof. intros H. apply nth_error_nth. now apply map_nth_error. Qed.

(** ** storing *)
Lemma store_all_ok size : forall l k m, 0 <= k -> k + cnt l <= size -> exists m', store_all size l (Done (k, m)) = Done (k + cnt l, m') /\
  (forall i r, nth_error l i = Some r -> m' (k + Z.of_nat i) = Some r) /\ (forall a, ~ (k <= a < k + cnt l) -> m' a = m a).
Proof.
  unfold store_all, cnt. induction l as [|r l IH]; intros k m H1 H2.
  - exists m. cbn. rewrite Z.add_0_r. conjs; [reflexivity|intros [|i] r H; discriminate|reflexivity].
  - cbn [length] in *. cbn [fold_left]. unfold store at 2. cbn [bind]. rewrite (proj2 (Z.leb_le 0 k)), (proj2 (Z.ltb_lt k size)) by lia. cbn [andb].
    destruct (IH (k + 1) (upd m k (Some r))) as (m' & E & St & F); [lia|lia|]. exists m'. rewrite E. conjs.
    + replace (k + 1 + Z.of_nat (length l)) with (k + Z.of_nat (S (length l))) by lia. reflexivity.
    + intros [|i] r' H; cbn in H.
      * injection H as <-. rewrite Z.add_0_r. rewrite F by lia. apply upd_same.
      * replace (k + Z.of_nat (S i)) with (k + 1 + Z.of_nat i) by lia. now apply St.
    + intros a Ha. rewrite F by lia. apply upd_other. lia.
Qed.

Lemma i_len (L : list line) i l : 0 <= i -> nth_error L (Z.to_nat i) = Some l -> i < Z.of_nat (length L).
Proof. intros Hi Hl. assert (Z.to_nat i < length L)%nat by (apply nth_error_Some; congruence). lia. Qed.
(** ** one line *)
Section LINE.
Variables (g : geom) (p : pars) (junk : Z -> Z -> Q).
Hypothesis G : sound g.
Lemma G_dx : (0 < g_dx g)%Q. Proof. exact (proj1 G). Qed.
Lemma G_dz : (0 < g_dz g)%Q. Proof. exact (proj1 (proj2 G)). Qed.
Lemma x_end_le : (x_end g <= g_x0 g + inject_Z (g_nx g) * g_dx g)%Q.
Proof. pose proof G_dx. unfold x_end. rewrite inject_sub. change (inject_Z 1) with 1%Q. set (k := inject_Z (g_nx g)). clearbody k. lra. Qed.
Lemma z_end_le : (z_end g <= g_z0 g + inject_Z (g_nz g) * g_dz g)%Q.
Proof. pose proof G_dz. unfold z_end. rewrite inject_sub. change (inject_Z 1) with 1%Q. set (k := inject_Z (g_nz g)). clearbody k. lra. Qed.

Variable L : list line.
Hypotheses (P1 : p_x1 p = map l_x1 L) (P2 : p_x2 p = map l_x2 L) (P3 : p_z1 p = map l_z1 L) (P4 : p_z2 p = map l_z2 L).
Variables (i : Z) (l : line).
Hypotheses (Hi : 0 <= i) (Hl : nth_error L (Z.to_nat i) = Some l) (In' : inside_model g l).
Lemma ends a : end_x1 g p junk a i = l_x1 l /\ end_x2 g p junk a i = l_x2 l /\ end_z1 g p junk a i = l_z1 l /\ end_z2 g p junk a i = l_z2 l.
Proof.
  pose proof (i_len L i l Hi Hl). pose proof x_end_le. pose proof z_end_le. destruct In' as (A1 & A2 & A3 & A4 & A5 & A6).
  unfold end_x1, end_x2, end_z1, end_z2, clamp_x, clamp_z. rewrite P1, P2, P3, P4.
  rewrite !getpar_in by (unfold cnt; rewrite map_length; lia).
  rewrite (nth_map_line l_x1 L _ _ l Hl), (nth_map_line l_x2 L _ _ l Hl), (nth_map_line l_z1 L _ _ l Hl), (nth_map_line l_z2 L _ _ l Hl).
  conjs; apply clamp_id; lra.
Qed.
End LINE.

(** the number of receivers of a line *)
Definition number (l : line) : Z :=
  if Qeqb (l_sx l) 0 then NINT ((l_z2 l - l_z1 l) / l_sz l) + 1 else NINT ((l_x2 l - l_x1 l) / l_sx l) + 1.
Lemma NINT_fits r s : (0 < s)%Q -> (s <= 2 * r)%Q -> 1 <= NINT (r / s) /\ fits r s (NINT (r / s) + 1).
Proof.
  intros S R. assert (Q0 : (1 # 2 <= r / s)%Q) by (apply Qle_shift_div_l; lra). destruct (NINT_nonneg (r / s)) as [A B]; [lra|]. split.
  - destruct (Z_le_gt_dec 1 (NINT (r / s))); [assumption|]. assert (X : (inject_Z (NINT (r / s)) <= inject_Z 0)%Q) by (rewrite <- Zle_Qle; lia). change (inject_Z 0) with 0%Q in X. lra.
  - unfold fits. replace (NINT (r / s) + 1 - 1) with (NINT (r / s)) by lia. set (k := inject_Z (NINT (r / s))) in *. clearbody k.
    assert (E : (r == (r / s) * s)%Q) by (field; lra). assert (E2 : (s / 2 == s * (1 # 2))%Q) by field. apply Qabs_Qle_condition. set (q := (r / s)%Q) in *. clearbody q.
    assert (0 <= s * (q - k + (1 # 2)))%Q by (apply Qmult_le_0_compat; lra). assert (0 <= s * (k + (1 # 2) - q))%Q by (apply Qmult_le_0_compat; lra). rewrite E, E2. split; lra.
Qed.
Lemma by_x_z l : by_x l -> by_z l -> False.
Proof. unfold by_x, by_z. intros (A & _) (B & _). lra. Qed.
Lemma number_ok l : by_x l \/ by_z l -> number_of l (number l).
Proof.
  intros H. unfold number_of, number. destruct H as [H|H].
  - pose proof H as (A & B). rewrite (Qeqb_false (l_sx l) 0) by lra. destruct (NINT_fits (l_x2 l - l_x1 l) (l_sx l) A B) as [C D]. conjs; [lia|now intros|intros Z; exfalso; eapply by_x_z; eassumption].
  - pose proof H as (A & B & C). rewrite (Qeqb_true (l_sx l) 0 A). destruct (NINT_fits (l_z2 l - l_z1 l) (l_sz l) B C) as [D E]. conjs; [lia|intros X; exfalso; eapply by_x_z; eassumption|now intros].
Qed.
Lemma Qabs'_id q : (0 <= q)%Q -> Qabs' q = q.
Proof. intros H. unfold Qabs'. now rewrite (Qltb_false q 0 H). Qed.
Lemma adjust_count g chk l x1 x2 z1 z2 : sound g -> by_x l \/ by_z l -> x1 = l_x1 l -> x2 = l_x2 l -> z1 = l_z1 l -> z2 = l_z2 l ->
  (let '(x2, sx, sz) := adjust g chk x1 x2 z1 z2 (l_sx l) (l_sz l) in count x1 x2 z1 z2 sx sz) = Done (number l).
Proof.
  intros G H -> -> -> ->. pose proof (G_dz g G) as Gz. unfold adjust, number. destruct H as [(A & B)|(A & B & C)].
  - assert (X : Qeqb (l_x1 l) (l_x2 l) = false) by (apply Qeqb_false; lra). assert (Y : Qeqb (l_sx l) 0 = false) by (apply Qeqb_false; lra). rewrite Y. cbn [andb].
    assert (K : (0 <= (l_x2 l - l_x1 l) / l_sx l)%Q) by (apply Qle_shift_div_l; lra).
    destruct chk; cbv beta iota zeta; [rewrite X; cbn [andb]|]; unfold count; rewrite Y; cbn [negb]; rewrite (Qabs'_id _ K); reflexivity.
  - assert (Y : Qeqb (l_sx l) 0 = true) by (apply Qeqb_true; lra). assert (Z0 : Qltb (l_sz l) 0 = false) by (apply Qltb_false; lra). assert (Z1 : Qeqb (l_sz l) 0 = false) by (apply Qeqb_false; lra).
    assert (Z2 : Qeqb (l_z1 l) (l_z2 l) = false) by (apply Qeqb_false; lra). assert (K : (0 <= (l_z2 l - l_z1 l) / l_sz l)%Q) by (apply Qle_shift_div_l; lra).
    rewrite Y. destruct chk.
    + rewrite Z0. cbv zeta. rewrite Z1. cbn [andb]. rewrite Y. cbn [negb]. rewrite andb_false_r, Z2. cbn [andb]. unfold count. rewrite Y, Z1. cbn [negb]. rewrite (Qabs'_id _ K). reflexivity.
    + unfold count. rewrite Y, Z1. cbn [negb]. rewrite (Qabs'_id _ K). reflexivity.
Qed.

(** ** all lines *)
Lemma distances_ok g p junk L a : L <> [] -> steps_given g (p_dx p) (p_dz p) L -> exists dxr dzr nd, distances g p junk (cnt L) a = Done (dxr, dzr, nd) /\
  forall i l, 0 <= i -> nth_error L (Z.to_nat i) = Some l -> dxr i = l_sx l /\ dzr i = l_sz l.
Proof.
  intros NE H. assert (Len : 1 <= cnt L) by (unfold cnt; destruct L; [congruence|cbn; lia]).
  destruct H as [[E1 E2]|[E2 (s & E1 & E3)]].
  - destruct (Z.eq_dec (cnt L) 0); [lia|]. unfold distances. rewrite E1, E2. unfold cnt. rewrite !map_length. fold (cnt L).
    rewrite Z.ltb_irrefl. cbn [orb]. rewrite (proj2 (Z.eqb_neq (cnt L) 0)) by lia. rewrite !andb_false_r. cbn [orb]. rewrite Z.eqb_refl. cbn [negb andb].
    eexists _, _, _. split; [reflexivity|]. intros i l Hi Hl. pose proof (i_len L i l Hi Hl). rewrite !getpar_in by (unfold cnt; rewrite map_length; lia). split; now apply nth_map_line.
  - unfold distances. rewrite E2. change (cnt (@nil Q)) with 0. assert (D : cnt (p_dx p) <= 1 /\ (getpar (p_dx p) (junk a) (g_dx g) 0 = s)).
    { destruct E1 as [E1|[E1 Es]]; rewrite E1; (split; [cbn; lia|]); [reflexivity|]. subst s. reflexivity. }
    destruct D as [D1 D2]. rewrite (proj2 (Z.ltb_ge (cnt L) (cnt (p_dx p)))), (proj2 (Z.ltb_ge (cnt L) 0)), (proj2 (Z.leb_le (cnt (p_dx p)) 1)) by lia. cbn [orb andb Z.eqb].
    eexists _, _, _. split; [reflexivity|]. intros i l Hi Hl. pose proof (i_len L i l Hi Hl). destruct (E3 l) as [A B]; [eapply nth_error_In; eassumption|]. rewrite A, B. unfold fill.
    destruct (Z.eq_dec i 0) as [->|Ni]; [cbn [Z.leb Z.compare andb]; rewrite D2; now split|]. rewrite (proj2 (Z.leb_le 1 i)), (proj2 (Z.ltb_lt i (cnt L))) by (unfold cnt; lia). cbn [andb]. rewrite D2. now split.
Qed.
Lemma counts_ok g p junk L : sound g -> L <> [] -> p_x1 p = map l_x1 L -> p_x2 p = map l_x2 L -> p_z1 p = map l_z1 L -> p_z2 p = map l_z2 L -> steps_given g (p_dx p) (p_dz p) L ->
  (forall l, In l L -> inside_model g l /\ (by_x l \/ by_z l)) ->
  exists nl, counts g p junk (cnt L) = Done nl /\ forall i l, 0 <= i -> nth_error L (Z.to_nat i) = Some l -> nl i = number l.
Proof.
  intros G NE P1 P2 P3 P4 S W. destruct (distances_ok g p junk L 4 NE S) as (dxr & dzr & nd & E & D). unfold counts. rewrite E. cbn [bind].
  set (f := fun (o : outcome (Z -> Z)) (i : Z) => _). pose proof (fun H => fold_range_inv (fun k o => exists nl, o = Done nl /\ forall i l, 0 <= i < k -> nth_error L (Z.to_nat i) = Some l -> nl i = number l) f 0 (cnt L) (Done (fun _ => 0)) H) as F.
  destruct F as (nl & En & Hn).
  - unfold cnt; lia.
  - eexists. split; [reflexivity|]. intros i l Hi. lia.
  - intros i o Hi (nl & -> & IH). assert (X : exists l, nth_error L (Z.to_nat i) = Some l). { destruct (nth_error L (Z.to_nat i)) eqn:N; [eauto|]. apply nth_error_None in N. unfold cnt in Hi. lia. }
    destruct X as (l & Hl). destruct (W l (nth_error_In _ _ Hl)) as [Wi Wb]. destruct (D i l (proj1 Hi) Hl) as [Dx Dz]. destruct (ends g p junk G L P1 P2 P3 P4 i l (proj1 Hi) Hl Wi 0) as (X1 & X2 & X3 & X4).
    pose proof Wi as (A1 & A2 & A3 & A4 & A5 & A6).
    exists (upd nl i (number l)). split.
    + unfold f. cbn [bind]. unfold line_count. rewrite X1, X2, X3, X4. change (sub_x1 g) with (x_end g). change (sub_z1 g) with (z_end g). rewrite !crop_id by assumption. rewrite Dx, Dz.
      rewrite (Qltb_false (l_sx l) 0), andb_false_r by (destruct Wb as [(B & _)|(B & _)]; lra). rewrite (adjust_count g (i <? nd) l) by (auto). reflexivity.
    + intros j l' Hj Hl'. destruct (Z.eq_dec j i) as [->|Nj]; [rewrite upd_same; congruence|]. rewrite upd_other by exact Nj. apply IH; [lia|exact Hl'].
  - exists nl. split; [exact En|]. intros i l Hi Hl. apply Hn; [|exact Hl]. pose proof (i_len L i l Hi Hl). unfold cnt. lia.
Qed.
