(** Receiver positions: C79, C80. *)
From Coq Require Import ZArith QArith Qabs List Bool Lia Lqa Setoid.
From Verif Require Import ListAux FdKernels FdProofs FdOutputProofs Marchenko MarchenkoProofs PropertiesMarchenko Makemod MakemodSpec MakemodProofs MakemodProofs2 MakemodProofs3 RecvSpec Recv RecvProofs.
Import ListNotations.
Local Open Scope Z_scope.

Lemma before_succ ns i : 0 <= i -> before ns (i + 1) = before ns i + ns i.
Proof.
  intros H. unfold before. replace (Z.to_nat (i + 1)) with (S (Z.to_nat i)) by lia. rewrite seq_S, map_app, fold_right_app. cbn [map fold_right Nat.add]. rewrite Z2Nat.id by lia.
  rewrite Z.add_0_r. generalize (ns i). induction (map (fun k => ns (Z.of_nat k)) (seq 0 (Z.to_nat i))) as [|a l IH]; intros v; cbn [fold_right]; [lia|]. rewrite IH. lia.
Qed.
Lemma before_0 ns : before ns 0 = 0. Proof. reflexivity. Qed.
Lemma before_mono ns n i : (forall j, 0 <= j < n -> 0 <= ns j) -> 0 <= i <= n -> before ns i <= before ns n.
Proof.
  intros H. intros Hi. assert (G : forall k, (Z.of_nat k <= n - i) -> before ns i <= before ns (i + Z.of_nat k)).
  { induction k; intros Hk; [rewrite Z.add_0_r; lia|]. replace (i + Z.of_nat (S k)) with (i + Z.of_nat k + 1) by lia. rewrite before_succ by lia. specialize (IHk ltac:(lia)). specialize (H (i + Z.of_nat k) ltac:(lia)). lia. }
  specialize (G (Z.to_nat (n - i))). replace (i + Z.of_nat (Z.to_nat (n - i))) with n in G by lia. apply G. lia.
Qed.
Lemma before_pos ns n : (forall j, 0 <= j < n -> 0 <= ns j) -> 0 <= n -> 0 <= before ns n.
Proof. intros H Hn. pose proof (before_mono ns n 0 H ltac:(lia)) as B. rewrite before_0 in B. exact B. Qed.
Lemma sum_before ns n : 0 <= n -> fold_left (fun s i => s + ns i) (range 0 n) 0 = before ns n.
Proof.
  intros H. apply (fold_range_inv (fun k s => s = before ns k)); [exact H|reflexivity|]. intros i s Hi ->. now rewrite before_succ by lia.
Qed.

Lemma index_near x0 d x a : (0 < d)%Q -> (a == x - x0)%Q -> nearest_to x0 d x (NINT (a / d)).
Proof.
  intros H E. unfold nearest_to. pose proof (C45_nearest (a / d)) as N. apply Qabs_Qle_condition in N. apply Qabs_Qle_condition.
  set (k := inject_Z (NINT (a / d))) in *. clearbody k. assert (Ea : (a == (a / d) * d)%Q) by (field; lra). set (q := (a / d)%Q) in *. clearbody q. assert (E2 : (d / 2 == d * (1 # 2))%Q) by field.
  assert (0 <= d * (q - k + (1 # 2)))%Q by (apply Qmult_le_0_compat; lra). assert (0 <= d * (k + (1 # 2) - q))%Q by (apply Qmult_le_0_compat; lra). rewrite E2. split; lra.
Qed.
Lemma receiver_placed g a b x z o : sound g -> o = Some (receiver g (Some a) (Some b)) -> (a == x - g_x0 g)%Q -> (b == z - g_z0 g)%Q -> placed g o x z.
Proof.
  intros (Gx & Gz & _) -> Ea Eb. split.
  - eexists _, a, b. conjs; try reflexivity; assumption.
  - eexists _, _, _. conjs; try reflexivity; now apply index_near.
Qed.
Lemma circle_count p nc : ncircle p = Done nc -> (forall c, p_circ p = Some c -> (0 < c_dphi c)%Q) -> 0 <= nc /\ circle_number (p_circ p) nc.
Proof.
  unfold ncircle, circle_number. destruct (p_circ p) as [c|]; intros E H; [|injection E as <-; split; [lia|reflexivity]].
  specialize (H c eq_refl). rewrite (Qeqb_false (c_dphi c) 0) in E by lra. injection E as <-.
  assert (Q0 : (0 <= 360 / c_dphi c)%Q) by (apply Qle_shift_div_l; lra). destruct (NINT_nonneg _ Q0) as [A B].
  assert (N : 0 <= NINT (360 / c_dphi c)). { destruct (Z_le_gt_dec 0 (NINT (360 / c_dphi c))); [assumption|]. assert (X : (inject_Z (NINT (360 / c_dphi c)) <= inject_Z (-1))%Q) by (rewrite <- Zle_Qle; lia). change (inject_Z (-1)) with (-1 # 1)%Q in X. lra. }
  conjs; [exact N|exact N|apply C45_nearest].
Qed.
Lemma circle_done p : (forall c, p_circ p = Some c -> (0 < c_dphi c)%Q) -> exists nc, ncircle p = Done nc.
Proof. intros H. unfold ncircle. destruct (p_circ p) as [c|]; [|eauto]. specialize (H c eq_refl). rewrite (Qeqb_false (c_dphi c) 0) by lra. eauto. Qed.
Lemma cnt_map_range {A} (f : Z -> A) n : 0 <= n -> cnt (map f (range 0 n)) = n.
Proof. intros H. unfold cnt, range. rewrite !map_length, seq_length. lia. Qed.
Lemma nth_map_range {A} (f : Z -> A) n i : 0 <= i < n -> nth_error (map f (range 0 n)) (Z.to_nat i) = Some (f i).
Proof.
  intros H. unfold range. rewrite !map_map.
  rewrite nth_error_map, nth_error_nth' with (d := 0%nat) by (rewrite seq_length; lia). rewrite seq_nth by lia. cbn. repeat f_equal. lia.
Qed.

(** the receivers that are not on lines *)
Lemma points_ok g p cosd sind nc size : 0 <= nc -> circle_number (p_circ p) nc -> others p nc <= size -> exists m0 m,
  store_all size (circle_receivers g p cosd sind nc) (Done (0, fun _ => None)) = Done (nc, m0) /\
  store_all size (array_receivers g p) (store_all size (text_receivers g p) (Done (nc, m0))) = Done (others p nc, m) /\
  (forall c i, p_circ p = Some c -> 0 <= i < nc -> m i = Some (on_circle g cosd sind c i)) /\
  (forall i x z, nth_error (p_txt p) i = Some (x, z) -> m (nc + Z.of_nat i) = Some (point g x z)) /\
  (forall i x z, nth_error (p_xa p) i = Some x -> nth_error (p_za p) i = Some z -> m (nc + cnt (p_txt p) + Z.of_nat i) = Some (point g x z)) /\
  (forall a, (0 <= a < others p nc <-> m a <> None)).
Proof.
  intros H C S. unfold others in *. assert (T0 : 0 <= cnt (p_txt p)) by (unfold cnt; lia). assert (A0 : 0 <= cnt (p_xa p)) by (unfold cnt; lia).
  assert (Lc : cnt (circle_receivers g p cosd sind nc) = nc). { unfold circle_receivers. unfold circle_number in C. destruct (p_circ p); [now apply cnt_map_range|now subst]. }
  assert (Lt : cnt (text_receivers g p) = cnt (p_txt p)) by (unfold cnt, text_receivers; now rewrite map_length).
  assert (La : cnt (array_receivers g p) = cnt (p_xa p)) by (unfold array_receivers; now apply cnt_map_range).
  destruct (store_all_ok size (circle_receivers g p cosd sind nc) 0 (fun _ => None)) as (m0 & E0 & S0 & F0); [lia|lia|]. rewrite Lc in E0, F0. cbn [Z.add] in E0, F0.
  destruct (store_all_ok size (text_receivers g p) nc m0) as (m1 & E1 & S1 & F1); [lia|lia|]. rewrite Lt in E1, F1.
  destruct (store_all_ok size (array_receivers g p) (nc + cnt (p_txt p)) m1) as (m2 & E2 & S2 & F2); [lia|lia|]. rewrite La in E2, F2.
  assert (Some0 : forall l (m' : Z -> option rcv) k, (forall i r, nth_error l i = Some r -> m' (k + Z.of_nat i) = Some r) -> forall a, k <= a < k + cnt l -> m' a <> None).
  { intros l m' k X a Ha. destruct (nth_error l (Z.to_nat (a - k))) as [r|] eqn:N; [|apply nth_error_None in N; unfold cnt in Ha; lia]. specialize (X _ _ N). replace (k + Z.of_nat (Z.to_nat (a - k))) with a in X by lia. congruence. }
  exists m0, m2. rewrite E1, E2. conjs; [exact E0|reflexivity| | | |].
  - intros c i Ec Hi. rewrite F2, F1 by lia. specialize (S0 (Z.to_nat i) (on_circle g cosd sind c i)). replace (0 + Z.of_nat (Z.to_nat i)) with i in S0 by lia. apply S0. unfold circle_receivers. rewrite Ec. now apply nth_map_range.
  - intros i x z Hi. assert (Li : (i < length (p_txt p))%nat) by (apply nth_error_Some; congruence). rewrite F2 by (unfold cnt; lia). apply S1. unfold text_receivers. rewrite nth_error_map, Hi. reflexivity.
  - intros i x z Hx Hz. assert (Li : (i < length (p_xa p))%nat) by (apply nth_error_Some; congruence). apply S2. unfold array_receivers. rewrite <- (Nat2Z.id i) at 1. rewrite nth_map_range by (unfold cnt; lia). rewrite !Nat2Z.id. now rewrite (nth_error_nth _ _ _ Hx), (nth_error_nth _ _ _ Hz).
  - intros a. split; [intros Ha|].
    + destruct (Z_lt_le_dec a (nc + cnt (p_txt p))); [|apply (Some0 _ _ _ S2); lia]. rewrite F2 by lia. destruct (Z_lt_le_dec a nc); [|apply (Some0 _ _ _ S1); lia]. rewrite F1 by lia. apply (Some0 _ _ 0 S0). lia.
    + intros N. destruct (Z_lt_le_dec a 0); [exfalso; apply N; rewrite F2, F1, F0 by lia; reflexivity|]. destruct (Z_lt_le_dec a (nc + cnt (p_txt p) + cnt (p_xa p))); [lia|]. exfalso; apply N; rewrite F2, F1, F0 by lia; reflexivity.
Qed.

(** storing the lines *)
Lemma lines_ok g p junk dxr dzr nl k size m n : 0 <= k -> 0 <= n -> (forall j, 0 <= j < n -> 0 <= nl j) -> k + before nl n <= size ->
  let r := fold_left (fun o i => bind o (fun km => bind (line_receivers g p junk dxr dzr nl i) (fun l => store_all size l (Done km)))) (range 0 n) (Done (k, m)) in
  ((forall j, 0 <= j < n -> exists l, line_receivers g p junk dxr dzr nl j = Done l) -> r <> Stop) /\ r <> Fault /\
  forall q, r = Done q -> fst q = k + before nl n /\
    (forall j, 0 <= j < n -> exists l, line_receivers g p junk dxr dzr nl j = Done l /\ cnt l = nl j /\ forall i, 0 <= i < nl j -> snd q (k + before nl j + i) = nth_error l (Z.to_nat i)) /\
    (forall a, ~ (k <= a < k + before nl n) -> snd q a = m a) /\ (forall a, k <= a < k + before nl n -> snd q a <> None).
Proof.
  intros Hk Hn Nl Hs. apply (fold_range_inv (fun b r => ((forall j, 0 <= j < b -> exists l, line_receivers g p junk dxr dzr nl j = Done l) -> r <> Stop) /\ r <> Fault /\
    forall q, r = Done q -> fst q = k + before nl b /\
    (forall j, 0 <= j < b -> exists l, line_receivers g p junk dxr dzr nl j = Done l /\ cnt l = nl j /\ forall i, 0 <= i < nl j -> snd q (k + before nl j + i) = nth_error l (Z.to_nat i)) /\
    (forall a, ~ (k <= a < k + before nl b) -> snd q a = m a) /\ (forall a, k <= a < k + before nl b -> snd q a <> None))); [exact Hn| |].
  - split; [discriminate|]. split; [discriminate|]. intros q [= <-]. cbn [fst snd]. rewrite before_0. conjs; [lia|intros j; lia|reflexivity|intros a; lia].
  - intros b r Hb (I1 & I2 & I3). destruct r as [| |[k' m']].
    { cbn [bind]. split; [|split; [discriminate|intros q; discriminate]]. intros X. exfalso. apply I1; [|reflexivity]. intros j Hj. apply X. lia. }
    { congruence. }
    cbn [bind]. specialize (I3 _ eq_refl). cbn [fst snd] in I3. destruct I3 as (Ek & Lk & Fk & Dk). subst k'.
    destruct (line_receivers g p junk dxr dzr nl b) as [| |l] eqn:El; cbn [bind].
    { split; [|split; [discriminate|intros q; discriminate]]. intros X. destruct (X b ltac:(lia)) as (l & Y). congruence. }
    { unfold line_receivers, used in El. destruct (negb (Qeqb (dxr b) 0)); [discriminate|]. destruct (Qeqb (dzr b) 0); discriminate. }
    assert (Ll : cnt l = nl b). { unfold line_receivers in El. destruct (used _ _ _ _ _ _ _) as [| |[sx sz]]; cbn [bind] in El; try discriminate. injection El as <-. apply cnt_map_range. apply Nl; lia. }
    pose proof (before_succ nl b ltac:(lia)) as Bs. pose proof (before_mono nl n (b + 1) Nl ltac:(lia)) as Bm. pose proof (Nl b ltac:(lia)) as Nb. assert (B0 : 0 <= before nl b) by (apply before_pos; [intros j Hj; apply Nl; lia|lia]).
    destruct (store_all_ok size l (k + before nl b) m') as (m2 & E2 & S2 & F2); [lia|lia|]. rewrite Ll in E2, F2. rewrite E2. split; [discriminate|]. split; [discriminate|]. intros q [= <-]. cbn [fst snd]. rewrite Bs. conjs.
    + lia.
    + intros j Hj. destruct (Z.eq_dec j b) as [->|Nj].
      * exists l. conjs; [exact El|exact Ll|]. intros i Hi. destruct (nth_error l (Z.to_nat i)) as [v|] eqn:Nt; [|apply nth_error_None in Nt; unfold cnt in Ll; lia]. rewrite <- (S2 _ _ Nt). f_equal. lia.
      * destruct (Lk j ltac:(lia)) as (l' & E' & C' & V'). exists l'. conjs; [exact E'|exact C'|]. intros i Hi. rewrite <- V' by exact Hi. apply F2.
        assert (before nl (j + 1) <= before nl b) by (apply before_mono; [intros x Hx; apply Nl; lia|lia]). rewrite before_succ in H by lia. lia.
    + intros a Ha. rewrite F2 by lia. apply Fk. lia.
    + intros a Ha. destruct (Z_lt_le_dec a (k + before nl b)); [rewrite F2 by lia; apply Dk; lia|].
      destruct (nth_error l (Z.to_nat (a - (k + before nl b)))) as [v|] eqn:Nt; [|apply nth_error_None in Nt; unfold cnt in Ll; lia]. specialize (S2 _ _ Nt). replace (k + before nl b + Z.of_nat (Z.to_nat (a - (k + before nl b)))) with a in S2 by lia. congruence.
Qed.

Lemma counts_nonneg g p junk n nl : counts g p junk n = Done nl -> 0 <= n -> forall j, 0 <= j < n -> 0 <= nl j.
Proof.
  unfold counts. intros E Hn. destruct (distances g p junk n 4) as [| |[[dxr dzr] nd]]; cbn [bind] in E; try discriminate.
  set (f := fun (o : outcome (Z -> Z)) (i : Z) => _) in E.
  assert (F : forall q, fold_left f (range 0 n) (Done (fun _ => 0)) = Done q -> forall j, 0 <= j < n -> 0 <= q j).
  { apply (fold_range_inv (fun k o => forall q, o = Done q -> forall j, 0 <= j < k -> 0 <= q j)); [exact Hn|intros q [= <-] j; lia|].
    intros i o Hi IH q Eq j Hj. destruct o as [| |q0]; try discriminate. unfold f in Eq. cbn [bind] in Eq. destruct (line_count g p junk dxr dzr nd i) as [| |c] eqn:Ec; cbn [bind] in Eq; try discriminate. injection Eq as <-.
    destruct (Z.eq_dec j i) as [->|Nj]; [|rewrite upd_other by exact Nj; apply (IH q0 eq_refl); lia]. rewrite upd_same.
    unfold line_count in Ec. destruct (crop _ _ _ _) as [[x1 x2]|]; [|discriminate]. destruct (crop _ _ _ _) as [[z1 z2]|]; [|discriminate]. destruct ((i <? nd) && Qltb (dxr i) 0); [discriminate|].
    destruct (adjust _ _ _ _ _ _ _ _) as [[x2' sx] sz]. assert (Np : forall q, 0 <= NINT (Qabs' q)).
    { intros t. assert (T : (0 <= Qabs' t)%Q). { unfold Qabs'. destruct (Qltb t 0) eqn:Et; [apply Qltb_lt in Et; lra|apply Qltb_ge in Et; lra]. } destruct (NINT_nonneg _ T) as [_ B].
      destruct (Z_le_gt_dec 0 (NINT (Qabs' t))); [assumption|]. assert (X : (inject_Z (NINT (Qabs' t)) <= inject_Z (-1))%Q) by (rewrite <- Zle_Qle; lia). change (inject_Z (-1)) with (-1 # 1)%Q in X. lra. }
    unfold count in Ec. destruct (negb (Qeqb sx 0)); [injection Ec as <-; pose proof (Np ((x2' - x1) / sx)%Q); lia|]. destruct (Qeqb sz 0); [discriminate|]. injection Ec as <-. pose proof (Np ((z2 - z1) / sz)%Q). lia. }
  exact (F nl E).
Qed.
Lemma nlines_nonneg p nc : 0 <= nlines p nc.
Proof. unfold nlines, cnt. destruct (_ && _); lia. Qed.

(** the parts of a run *)
Lemma recvpar_parts g p junk cosd sind : (forall c, p_circ p = Some c -> (0 < c_dphi c)%Q) -> exists nc, 0 <= nc /\ circle_number (p_circ p) nc /\ ncircle p = Done nc /\
  forall nl, equal_counts p = true -> (if nlines p nc =? 0 then Done (fun _ => 0) else counts g p junk (nlines p nc)) = Done nl ->
  let n := nlines p nc in (forall j, 0 <= j < n -> 0 <= nl j) /\ exists m, 
  recvpar g p junk cosd sind = bind (if before nl n =? 0 then Done (others p nc, m) else bind (distances g p junk n 10) (fun '(dxr, dzr, _) =>
     fold_left (fun o i => bind o (fun km => bind (line_receivers g p junk dxr dzr nl i) (fun l => store_all (others p nc + before nl n) l (Done km)))) (range 0 n) (Done (others p nc, m)))) (fun '(_, m) => Done (others p nc + before nl n, m)) /\
  (forall c i, p_circ p = Some c -> 0 <= i < nc -> m i = Some (on_circle g cosd sind c i)) /\
  (forall i x z, nth_error (p_txt p) i = Some (x, z) -> m (nc + Z.of_nat i) = Some (point g x z)) /\
  (forall i x z, nth_error (p_xa p) i = Some x -> nth_error (p_za p) i = Some z -> m (nc + cnt (p_txt p) + Z.of_nat i) = Some (point g x z)) /\
  (forall a, (0 <= a < others p nc <-> m a <> None)).
Proof.
  intros C. destruct (circle_done p C) as (nc & Enc). destruct (circle_count p nc Enc C) as [N0 Cn]. exists nc. conjs; try assumption. intros nl Ec En n.
  assert (Nn : forall j, 0 <= j < n -> 0 <= nl j). { pose proof (nlines_nonneg p nc) as Z0. fold n in En, Z0. destruct (n =? 0) eqn:E0; [apply Z.eqb_eq in E0; intros j; lia|]. now apply (counts_nonneg g p junk). }
  split; [exact Nn|]. assert (Bp : 0 <= before nl n) by (apply before_pos; [exact Nn|apply nlines_nonneg]).
  destruct (points_ok g p cosd sind nc (others p nc + before nl n) N0 Cn ltac:(lia)) as (m0 & m & E0 & E1 & P1 & P2 & P3 & P4). exists m. conjs; [|exact P1|exact P2|exact P3|exact P4].
  unfold recvpar. rewrite Enc. cbn [bind]. rewrite Ec. cbn [negb]. cbv zeta. rewrite En. cbn [bind]. fold n. rewrite (sum_before nl n) by apply nlines_nonneg. rewrite E0. cbn [bind]. rewrite E1. cbn [bind]. reflexivity.
Qed.

(** C79 *)
Theorem C79_lines g p junk cosd sind L : sound g -> L <> [] ->
  p_x1 p = map l_x1 L -> p_x2 p = map l_x2 L -> p_z1 p = map l_z1 L -> p_z2 p = map l_z2 L -> steps_given g (p_dx p) (p_dz p) L ->
  (forall l, In l L -> inside_model g l /\ (by_x l \/ by_z l)) ->
  length (p_xa p) = length (p_za p) -> (forall c, p_circ p = Some c -> (0 < c_dphi c)%Q) ->
  exists nc ns m, circle_number (p_circ p) nc /\
    let first := nc + Z.of_nat (length (p_txt p)) + Z.of_nat (length (p_xa p)) in
    recvpar g p junk cosd sind = Done (first + before ns (Z.of_nat (length L)), m) /\
    forall i l, nth_error L i = Some l -> number_of l (ns (Z.of_nat i)) /\
      forall r, 0 <= r < ns (Z.of_nat i) -> exists x z, at_line l (ns (Z.of_nat i)) r x z /\ placed g (m (first + before ns (Z.of_nat i) + r)) x z.
Proof.
  intros G NE P1 P2 P3 P4 S W Ea C. destruct (recvpar_parts g p junk cosd sind C) as (nc & N0 & Cn & _ & R).
  assert (Len : 1 <= cnt L) by (unfold cnt; destruct L; [congruence|cbn; lia]).
  assert (Ex : forall (f : line -> Q), cnt (map f L) = cnt L) by (intros f; unfold cnt; now rewrite map_length).
  assert (Eq : equal_counts p = true). { unfold equal_counts. rewrite P1, P2, P3, P4, !Ex. unfold cnt at 1 2. rewrite Ea, !Z.eqb_refl. reflexivity. }
  assert (Nl : nlines p nc = cnt L). { unfold nlines. rewrite P1, Ex. rewrite (proj2 (Z.eqb_neq (cnt L) 0)) by lia. now rewrite andb_false_r. }
  destruct (counts_ok g p junk L G NE P1 P2 P3 P4 S W) as (nl & Ec & Hc). rewrite Nl in R. rewrite (proj2 (Z.eqb_neq (cnt L) 0)) in R by lia. destruct (R nl Eq Ec) as (Nn & m & Er & _).
  destruct (distances_ok g p junk L 10 NE S) as (dxr & dzr & nd & Ed & Hd). rewrite Ed in Er. cbn [bind] in Er.
  assert (Hn : forall i l, 0 <= i -> nth_error L (Z.to_nat i) = Some l -> number_of l (nl i)). { intros i l Hi Hl. rewrite (Hc i l Hi Hl). apply number_ok. apply (W l). eapply nth_error_In; eassumption. }
  assert (Lr : forall i l, 0 <= i -> nth_error L (Z.to_nat i) = Some l -> exists sx sz, line_receivers g p junk dxr dzr nl i = Done (map (fun ir => receiver g (Some (l_x1 l - g_x0 g + inject_Z ir * sx)%Q) (Some (l_z1 l - g_z0 g + inject_Z ir * sz)%Q)) (range 0 (nl i))) /\
     (by_x l -> sx = l_sx l /\ (sz = (l_z2 l - l_z1 l) / inject_Z (nl i - 1))%Q) /\ (by_z l -> (sx = (l_x2 l - l_x1 l) / inject_Z (nl i - 1))%Q /\ sz = l_sz l)).
  { intros i l Hi Hl. destruct (W l (nth_error_In _ _ Hl)) as [Wi Wb]. destruct (Hd i l Hi Hl) as [Dx Dz]. destruct (ends g p junk G L P1 P2 P3 P4 i l Hi Hl Wi 6) as (X1 & X2 & X3 & X4).
    destruct (Hn i l Hi Hl) as (N2 & _). assert (F0 : Qeqb (inject_Z (nl i - 1)) 0 = false). { apply Qeqb_false. change 0%Q with (inject_Z 0). rewrite inject_Z_injective. lia. }
    unfold line_receivers. rewrite X1, X2, X3, X4, Dx, Dz. unfold used, fdiv. rewrite F0. destruct Wb as [Wb|Wb].
    - rewrite (Qeqb_false (l_sx l) 0) by (destruct Wb; lra). cbn [negb bind along]. eexists _, _. split; [reflexivity|]. split; [now split|]. intros Z. exfalso. eapply by_x_z; eassumption.
    - rewrite (Qeqb_true (l_sx l) 0), (Qeqb_false (l_sz l) 0) by (destruct Wb as (? & ? & ?); lra). cbn [negb bind along]. eexists _, _. split; [reflexivity|]. split; [|now split]. intros Z. exfalso. eapply by_x_z; eassumption. }
  assert (Lx : forall j, 0 <= j < cnt L -> exists l, nth_error L (Z.to_nat j) = Some l). { intros j Hj. destruct (nth_error L (Z.to_nat j)) eqn:N; [eauto|]. apply nth_error_None in N. unfold cnt in Hj. lia. }
  assert (Bp : before nl (cnt L) =? 0 = false). { apply Z.eqb_neq. pose proof (before_mono nl (cnt L) 1 Nn ltac:(lia)) as B. change 1 with (0 + 1) in B at 1. rewrite before_succ, before_0 in B by lia. destruct (Lx 0 ltac:(lia)) as (l & Hl). destruct (Hn 0 l ltac:(lia) Hl). lia. }
  rewrite Bp in Er. assert (K0 : 0 <= others p nc) by (unfold others, cnt; lia).
  pose proof (lines_ok g p junk dxr dzr nl (others p nc) (others p nc + before nl (cnt L)) m (cnt L) K0 ltac:(lia) Nn ltac:(lia)) as LO. cbv zeta in LO. destruct LO as (NS & NF & D).
  set (r := fold_left _ _ _) in *. destruct r as [| |[k m']]; [|congruence|].
  { exfalso. apply NS; [|reflexivity]. intros j Hj. destruct (Lx j Hj) as (l & Hl). destruct (Lr j l (proj1 Hj) Hl) as (sx & sz & E & _). eauto. }
  cbn [bind] in Er. destruct (D _ eq_refl) as (_ & V & _ & _). cbn [fst snd] in V. exists nc, nl, m'. cbv zeta. split; [exact Cn|]. split; [exact Er|].
  intros i l Hl. assert (Hz : nth_error L (Z.to_nat (Z.of_nat i)) = Some l) by now rewrite Nat2Z.id. assert (Hi : 0 <= Z.of_nat i < cnt L) by (split; [lia|apply (i_len L _ l); [lia|exact Hz]]).
  split; [now apply Hn|]. intros r Hr. destruct (V _ Hi) as (ll & El & _ & Vi). destruct (Lr _ l (proj1 Hi) Hz) as (sx & sz & El' & Bx & Bz). rewrite El in El'. injection El' as ->. specialize (Vi r Hr). rewrite nth_map_range in Vi by exact Hr.
  exists (l_x1 l + inject_Z r * sx)%Q, (l_z1 l + inject_Z r * sz)%Q. split.
  - split; intros B; [destruct (Bx B) as [-> ->]|destruct (Bz B) as [-> ->]]; split; reflexivity.
  - eapply receiver_placed; [exact G|exact Vi| |]; ring.
Qed.
Print Assumptions C79_lines.

(** when the distance divides the extent of the line, all its receivers are on it, and their grid points in the model *)
Lemma nearest_inside x0 d n x i : (0 < d)%Q -> (x0 <= x)%Q -> (x <= x0 + inject_Z (n - 1) * d)%Q -> nearest_to x0 d x i -> 0 <= i < n.
Proof.
  intros D A B N. unfold nearest_to in N. apply Qabs_Qle_condition in N. assert (E2 : (d / 2 == d * (1 # 2))%Q) by field. rewrite E2 in N. destruct N as [N1 N2]. split.
  - destruct (Z_le_gt_dec 0 i); [assumption|]. exfalso. assert (X : (inject_Z i <= inject_Z (-1))%Q) by (rewrite <- Zle_Qle; lia). change (inject_Z (-1)) with (-1 # 1)%Q in X. set (k := inject_Z i) in *. clearbody k.
    assert (0 <= d * ((-1 # 1) - k))%Q by (apply Qmult_le_0_compat; lra). lra.
  - destruct (Z_lt_ge_dec i n); [assumption|]. exfalso. assert (X : (inject_Z n <= inject_Z i)%Q) by (rewrite <- Zle_Qle; lia). rewrite inject_sub in B. change (inject_Z 1) with 1%Q in B. set (k := inject_Z i) in *. set (j := inject_Z n) in *. clearbody k j.
    assert (0 <= d * (k - j))%Q by (apply Qmult_le_0_compat; lra). lra.
Qed.
Lemma fits_exact r s n k : (0 < s)%Q -> (r == inject_Z k * s)%Q -> fits r s n -> (inject_Z (n - 1) * s == r)%Q.
Proof.
  intros S E F. unfold fits in F. apply Qabs_Qle_condition in F. assert (E2 : (s / 2 == s * (1 # 2))%Q) by field. rewrite E2 in F. destruct F as [F1 F2]. rewrite E in *.
  assert (X : k = n - 1). { assert (k - (n - 1) < 1 /\ -1 < k - (n - 1)); [|lia]. split.
    - destruct (Z_lt_ge_dec (k - (n - 1)) 1); [assumption|]. exfalso. assert (Y : (inject_Z (n - 1) + 1 <= inject_Z k)%Q) by (change 1%Q with (inject_Z 1); rewrite <- inject_Z_plus, <- Zle_Qle; lia). set (a := inject_Z k) in *. set (b := inject_Z (n - 1)) in *. clearbody a b.
      assert (0 <= s * (a - b - 1))%Q by (apply Qmult_le_0_compat; lra). lra.
    - destruct (Z_lt_ge_dec (-1) (k - (n - 1))); [assumption|]. exfalso. assert (Y : (inject_Z k + 1 <= inject_Z (n - 1))%Q) by (change 1%Q with (inject_Z 1); rewrite <- inject_Z_plus, <- Zle_Qle; lia). set (a := inject_Z k) in *. set (b := inject_Z (n - 1)) in *. clearbody a b.
      assert (0 <= s * (b - a - 1))%Q by (apply Qmult_le_0_compat; lra). lra. }
  now rewrite X.
Qed.
Lemma part_between a b n r : (a <= b)%Q -> 2 <= n -> 0 <= r < n -> (a <= a + inject_Z r * ((b - a) / inject_Z (n - 1)) /\ a + inject_Z r * ((b - a) / inject_Z (n - 1)) <= b)%Q.
Proof.
  intros H N R. assert (P : (0 < inject_Z (n - 1))%Q) by (change 0%Q with (inject_Z 0); rewrite <- Zlt_Qlt; lia). assert (R0 : (0 <= inject_Z r)%Q) by (change 0%Q with (inject_Z 0); rewrite <- Zle_Qle; lia).
  assert (R1 : (inject_Z r <= inject_Z (n - 1))%Q) by (rewrite <- Zle_Qle; lia). set (q := ((b - a) / inject_Z (n - 1))%Q). assert (Q0 : (0 <= q)%Q) by (apply Qle_shift_div_l; lra).
  assert (E : (inject_Z (n - 1) * q == b - a)%Q) by (unfold q; field; lra). clearbody q. set (k := inject_Z (n - 1)) in *. set (j := inject_Z r) in *. clearbody k j.
  assert (0 <= q * j)%Q by (apply Qmult_le_0_compat; lra). assert (0 <= q * (k - j))%Q by (apply Qmult_le_0_compat; lra). split; lra.
Qed.
Lemma step_between a b s n r : (0 < s)%Q -> (inject_Z (n - 1) * s == b - a)%Q -> 0 <= r < n -> (a <= a + inject_Z r * s /\ a + inject_Z r * s <= b)%Q.
Proof.
  intros S E R. assert (R0 : (0 <= inject_Z r)%Q) by (change 0%Q with (inject_Z 0); rewrite <- Zle_Qle; lia). assert (R1 : (inject_Z r <= inject_Z (n - 1))%Q) by (rewrite <- Zle_Qle; lia).
  set (k := inject_Z (n - 1)) in *. set (j := inject_Z r) in *. clearbody k j. assert (0 <= s * j)%Q by (apply Qmult_le_0_compat; lra). assert (0 <= s * (k - j))%Q by (apply Qmult_le_0_compat; lra). split; lra.
Qed.
Theorem C79_in_model g l n r x z o : sound g -> inside_model g l -> by_x l \/ by_z l -> number_of l n -> 0 <= r < n -> at_line l n r x z -> placed g o x z ->
  (by_x l -> exists k, l_x2 l - l_x1 l == inject_Z k * l_sx l)%Q -> (by_z l -> exists k, l_z2 l - l_z1 l == inject_Z k * l_sz l)%Q ->
  (l_x1 l <= x /\ x <= l_x2 l /\ l_z1 l <= z /\ z <= l_z2 l)%Q /\
  exists v i j, o = Some v /\ r_x v = Some i /\ r_z v = Some j /\ 0 <= i < g_nx g /\ 0 <= j < g_nz g.
Proof.
  intros (Gx & Gz & _) (A1 & A2 & A3 & A4 & A5 & A6) B (N2 & Nx & Nz) R (Lx & Lz) (_ & v & i & j & Eo & Ei & Ej & Hi & Hj) Dx Dz.
  assert (X : (l_x1 l <= x /\ x <= l_x2 l /\ l_z1 l <= z /\ z <= l_z2 l)%Q).
  { destruct B as [B|B].
    - destruct (Lx B) as [Ex Ez]. destruct (Dx B) as (k & Ek). pose proof (fits_exact _ _ n k (proj1 B) Ek (Nx B)) as F. destruct (step_between _ _ _ n r (proj1 B) F R). destruct (part_between (l_z1 l) (l_z2 l) n r A5 N2 R). rewrite Ex, Ez. repeat split; assumption.
    - destruct (Lz B) as [Ex Ez]. destruct (Dz B) as (k & Ek). destruct B as (B1 & B2 & B3). pose proof (fits_exact _ _ n k B2 Ek (Nz (conj B1 (conj B2 B3)))) as F. destruct (step_between _ _ _ n r B2 F R). destruct (part_between (l_x1 l) (l_x2 l) n r A2 N2 R). rewrite Ex, Ez. repeat split; assumption. }
  split; [exact X|]. destruct X as (X1 & X2 & X3 & X4). unfold x_end in A3. unfold z_end in A6. exists v, i, j. split; [exact Eo|]. split; [exact Ei|]. split; [exact Ej|]. split.
  - apply (nearest_inside (g_x0 g) (g_dx g) (g_nx g) x); [exact Gx| | |exact Hi]; lra.
  - apply (nearest_inside (g_z0 g) (g_dz g) (g_nz g) z); [exact Gz| | |exact Hj]; lra.
Qed.
Print Assumptions C79_in_model.

(** without any parameter there is one receiver at every grid point of the top row *)
Definition nothing : pars := {| p_x1 := []; p_x2 := []; p_z1 := []; p_z2 := []; p_dx := []; p_dz := []; p_xa := []; p_za := []; p_txt := []; p_circ := None |}.
Theorem C79_default g junk cosd sind : sound g -> 2 <= g_nx g -> exists m, recvpar g nothing junk cosd sind = Done (g_nx g, m) /\
  forall i, 0 <= i < g_nx g -> exists v, m i = Some v /\ r_x v = Some i /\ r_z v = Some 0 /\ has_coordinates g (Some v) (g_x0 g + inject_Z i * g_dx g) (g_z0 g).
Proof.
  intros G N. destruct (recvpar_parts g nothing junk cosd sind) as (nc & N0 & Cn & _ & R); [intros c X; discriminate|]. cbn in Cn. subst nc.
  pose proof G as (Gx & Gz & G1 & G2). set (l := {| l_x1 := g_x0 g; l_x2 := x_end g; l_z1 := g_z0 g; l_z2 := g_z0 g; l_sx := g_dx g; l_sz := 0%Q |}).
  assert (Kn : (0 <= inject_Z (g_nx g - 1))%Q) by (change 0%Q with (inject_Z 0); rewrite <- Zle_Qle; lia). assert (Kz : (0 <= inject_Z (g_nz g - 1))%Q) by (change 0%Q with (inject_Z 0); rewrite <- Zle_Qle; lia).
  assert (K1 : (1 <= inject_Z (g_nx g - 1))%Q) by (change 1%Q with (inject_Z 1); rewrite <- Zle_Qle; lia).
  assert (Xe : (g_x0 g + g_dx g <= x_end g)%Q). { unfold x_end. set (k := inject_Z (g_nx g - 1)) in *. clearbody k. assert (0 <= g_dx g * (k - 1))%Q by (apply Qmult_le_0_compat; lra). lra. }
  assert (Ze : (g_z0 g <= z_end g)%Q). { unfold z_end. set (k := inject_Z (g_nz g - 1)) in *. clearbody k. assert (0 <= g_dz g * k)%Q by (apply Qmult_le_0_compat; lra). lra. }
  pose proof (x_end_le g G) as Xl. pose proof (z_end_le g G) as Zl.
  assert (Bx : by_x l) by (split; cbn; [exact Gx|lra]).
  assert (En : forall a, end_x1 g nothing junk a 0 = l_x1 l /\ end_x2 g nothing junk a 0 = l_x2 l /\ end_z1 g nothing junk a 0 = l_z1 l /\ end_z2 g nothing junk a 0 = l_z2 l).
  { intros a. unfold end_x1, end_x2, end_z1, end_z2, clamp_x, clamp_z. cbn [getpar nothing p_x1 p_x2 p_z1 p_z2]. rewrite !upd_same. cbn. conjs; apply clamp_id; try lra; change (sub_x1 g) with (x_end g); lra. }
  assert (Nm : number l = g_nx g). { unfold number. cbn [l l_sx l_x1 l_x2]. rewrite (Qeqb_false (g_dx g) 0) by lra. rewrite (NINT_int _ (g_nx g - 1)); [lia|]. unfold x_end. field. lra. }
  assert (Ed : forall a, distances g nothing junk 1 a = Done (fill 1 (upd (junk a) 0 (g_dx g)), fill 1 (upd (junk (a + 1)) 0 0%Q), 1)) by reflexivity.
  assert (Fx : forall a v, fill 1 (upd (junk a) 0 v) 0 = v) by (intros a v; unfold fill; cbn [Z.leb Z.compare andb]; apply upd_same).
  assert (Ec : counts g nothing junk 1 = Done (upd (fun _ => 0) 0 (g_nx g))).
  { unfold counts. rewrite Ed. cbn [bind]. change (range 0 1) with [0]. cbn [fold_left bind]. unfold line_count. destruct (En 0) as (-> & -> & -> & ->). change (sub_x1 g) with (x_end g). change (sub_z1 g) with (z_end g). cbn [l_x1 l_x2 l_z1 l_z2 l].
    rewrite !crop_id by lra. rewrite !Fx. rewrite (Qltb_false (g_dx g) 0) by lra. rewrite andb_false_r. pose proof (adjust_count g (0 <? 1) l (l_x1 l) (l_x2 l) (l_z1 l) (l_z2 l) G (or_introl Bx) eq_refl eq_refl eq_refl eq_refl) as A. cbn [l_x1 l_x2 l_z1 l_z2 l_sx l_sz l] in A. rewrite A. cbn [bind]. fold l. now rewrite Nm. }
  change (nlines nothing 0) with 1 in R. cbn [Z.eqb] in R. destruct (R _ eq_refl Ec) as (Nn & m & Er & _ & _ & _ & _). set (nl := upd (fun _ => 0) 0 (g_nx g)) in *. assert (N1 : nl 0 = g_nx g) by apply upd_same. assert (Bf : before nl 1 = g_nx g) by (change 1 with (0 + 1); rewrite before_succ, before_0 by lia; lia).
  rewrite Bf, Ed in Er. cbn [bind] in Er. rewrite (proj2 (Z.eqb_neq (g_nx g) 0)) in Er by lia. change (others nothing 0) with 0 in Er. cbn [Z.add] in Er.
  match type of Er with context [fill 1 (upd ?f 0 (g_dx g))] => set (dxr := fill 1 (upd f 0 (g_dx g))) in Er end. match type of Er with context [fill 1 (upd ?f 0 0%Q)] => set (dzr := fill 1 (upd f 0 0%Q)) in Er end.
  pose proof (lines_ok g nothing junk dxr dzr nl 0 (g_nx g) m 1 ltac:(lia) ltac:(lia) Nn ltac:(lia)) as LO. cbv zeta in LO. rewrite Bf in LO. destruct LO as (NS & NF & D). set (r := fold_left _ _ _) in *.
  assert (El : line_receivers g nothing junk dxr dzr nl 0 = Done (map (fun ir => receiver g (Some (g_x0 g - g_x0 g + inject_Z ir * g_dx g)%Q) (Some (g_z0 g - g_z0 g + inject_Z ir * ((g_z0 g - g_z0 g) / inject_Z (g_nx g - 1)))%Q)) (range 0 (g_nx g)))).
  { unfold line_receivers. destruct (En 6) as (-> & -> & -> & ->). rewrite N1. unfold dxr, dzr. rewrite !Fx. unfold used, fdiv. rewrite (Qeqb_false (g_dx g) 0) by lra. rewrite (Qeqb_false (inject_Z (g_nx g - 1)) 0) by lra. reflexivity. }
  destruct r as [| |[k m']]; [|congruence|].
  { exfalso. apply NS; [|reflexivity]. intros j Hj. replace j with 0 by lia. eauto. }
  cbn [bind] in Er. exists m'. split; [exact Er|]. intros i Hi. destruct (D _ eq_refl) as (_ & V & _). destruct (V 0 ltac:(lia)) as (ll & El' & _ & Vi). rewrite El in El'. injection El' as <-. rewrite N1 in Vi. specialize (Vi i Hi). rewrite before_0 in Vi. cbn [Z.add fst snd] in Vi. rewrite nth_map_range in Vi by exact Hi.
  eexists. split; [exact Vi|]. cbn [receiver r_x r_z index]. split; [|split].
  - f_equal. apply NINT_int. field. lra.
  - f_equal. apply NINT_int. change (inject_Z 0) with 0%Q. field. split; lra.
  - eexists _, _, _. split; [reflexivity|]. split; [reflexivity|]. split; [reflexivity|]. split; [ring|field; lra].
Qed.
Print Assumptions C79_default.

(** a model of eleven by eleven points, and one line *)
Definition square : geom := {| g_x0 := 0; g_z0 := 0; g_dx := 1; g_dz := 1; g_nx := 11; g_nz := 11 |}.
Definition one_line (x1 x2 z1 z2 : Q) (dxs dzs : list Q) : pars :=
  {| p_x1 := [x1]; p_x2 := [x2]; p_z1 := [z1]; p_z2 := [z2]; p_dx := dxs; p_dz := dzs; p_xa := []; p_za := []; p_txt := []; p_circ := None |}.
Definition zeros : Z -> Z -> Q := fun _ _ => 0%Q.
Definition same : Q -> Q := fun q => q.
Lemma square_sound : sound square. Proof. unfold sound. cbn. lra || (repeat split; (lra || lia)). Qed.

(** a vertical line with only dzrcv given: the receivers are placed on a diagonal *)
Theorem C79_vertical_refuted : exists m v, recvpar square (one_line 5 5 0 4 [] [1%Q]) zeros same same = Done (5, m) /\ m 4 = Some v /\ r_x v = Some 9 /\ r_z v = Some 4.
Proof. eexists _, _. repeat split; reflexivity. Qed.
Print Assumptions C79_vertical_refuted.
(** a distance that does not divide the line: a receiver outside the model *)
Theorem C79_outside_refuted : exists m v, recvpar square (one_line 0 10 0 0 [4%Q] []) zeros same same = Done (4, m) /\ m 3 = Some v /\ r_x v = Some 12 /\ g_nx square = 11.
Proof. eexists _, _. repeat split; reflexivity. Qed.
Print Assumptions C79_outside_refuted.
(** a line shorter than half the distance: one receiver whose depth is not a number *)
Theorem C79_short_refuted : exists m v, recvpar square (one_line 0 1 0 0 [10%Q] []) zeros same same = Done (1, m) /\ m 0 = Some v /\ r_zr v = None /\ r_z v = None.
Proof. eexists _, _. repeat split; reflexivity. Qed.
Print Assumptions C79_short_refuted.
(** one dxrcv and one dzrcv for two lines: the result depends on memory that was never set *)
Definition two_lines : pars := {| p_x1 := [0%Q; 0%Q]; p_x2 := [4%Q; 4%Q]; p_z1 := [0%Q; 1%Q]; p_z2 := [0%Q; 1%Q]; p_dx := [1%Q]; p_dz := [0%Q]; p_xa := []; p_za := []; p_txt := []; p_circ := None |}.
Theorem C79_uninitialised_refuted : exists m1 m2, recvpar square two_lines (fun _ _ => 1%Q) same same = Done (10, m1) /\ recvpar square two_lines (fun _ _ => 2%Q) same same = Done (8, m2).
Proof. eexists _, _. split; reflexivity. Qed.
Print Assumptions C79_uninitialised_refuted.
(** a negative dxrcv, or more distances than lines: writes outside the arrays; both distances 0: stops instead of
    placing one receiver *)
Theorem C79_faults_refuted : recvpar square (one_line 0 10 0 0 [(-1)%Q] []) zeros same same = Fault /\ recvpar square (one_line 0 10 0 0 [1%Q; 1%Q] []) zeros same same = Fault /\
  recvpar square (one_line 5 5 3 3 [0%Q] [0%Q]) zeros same same = Stop.
Proof. repeat split; reflexivity. Qed.
Print Assumptions C79_faults_refuted.

Definition demo_lines : list line :=
  [{| l_x1 := 0; l_x2 := 10; l_z1 := 2; l_z2 := 7; l_sx := 2; l_sz := 0 |}; {| l_x1 := 5; l_x2 := 5; l_z1 := 0; l_z2 := 9; l_sx := 0; l_sz := 3 |}].
Definition demo_pars : pars := {| p_x1 := map l_x1 demo_lines; p_x2 := map l_x2 demo_lines; p_z1 := map l_z1 demo_lines; p_z2 := map l_z2 demo_lines;
  p_dx := map l_sx demo_lines; p_dz := map l_sz demo_lines; p_xa := [3%Q]; p_za := [4%Q]; p_txt := [(1%Q, 2%Q)]; p_circ := Some {| c_r := 2; c_dphi := 90; c_ox := 9; c_oz := 5 |} |}.
Example C79_nonvacuous : steps_given square (p_dx demo_pars) (p_dz demo_pars) demo_lines /\ (forall l, In l demo_lines -> inside_model square l /\ (by_x l \/ by_z l)) /\
  exists m v, recvpar square demo_pars zeros same same = Done (16, m) /\ m (6 + 6 + 3) = Some v /\ r_x v = Some 5 /\ r_z v = Some 9.
Proof.
  split; [left; split; reflexivity|]. split.
  - intros l [<-|[<-|[]]]; (split; [unfold inside_model, x_end, z_end, square, inject_Z; cbn; lra|]); [left|right]; unfold by_x, by_z; cbn; lra.
  - eexists _, _. repeat split; reflexivity.
Qed.

(** C80 *)
Theorem C80_points g p junk cosd sind n m : sound g -> (forall c, p_circ p = Some c -> (0 < c_dphi c)%Q) -> recvpar g p junk cosd sind = Done (n, m) -> exists nc, circle_number (p_circ p) nc /\
  (forall c i, p_circ p = Some c -> 0 <= i < nc -> placed_inside g (m i) (c_ox c + c_r c * cosd (inject_Z i * c_dphi c)%Q)%Q (c_oz c + c_r c * sind (inject_Z i * c_dphi c)%Q)%Q) /\
  (forall i x z, nth_error (p_txt p) i = Some (x, z) -> placed g (m (nc + Z.of_nat i)) x z) /\
  (forall i x z, nth_error (p_xa p) i = Some x -> nth_error (p_za p) i = Some z -> placed g (m (nc + Z.of_nat (length (p_txt p)) + Z.of_nat i)) x z) /\
  length (p_xa p) = length (p_za p) /\
  (forall k, 0 <= k < n <-> m k <> None).
Proof.
  intros G C E. destruct (recvpar_parts g p junk cosd sind C) as (nc & N0 & Cn & Enc & R).
  assert (Eq : equal_counts p = true). { unfold recvpar in E. rewrite Enc in E. cbn [bind] in E. destruct (equal_counts p); [reflexivity|discriminate]. }
  assert (Ec : exists nl, (if nlines p nc =? 0 then Done (fun _ => 0) else counts g p junk (nlines p nc)) = Done nl).
  { unfold recvpar in E. rewrite Enc in E. cbn [bind] in E. rewrite Eq in E. cbn [negb] in E. cbv zeta in E. destruct (if nlines p nc =? 0 then _ else _) as [| |nl]; cbn [bind] in E; try discriminate. eauto. }
  destruct Ec as (nl & Ec). destruct (R nl Eq Ec) as (Nn & m0 & Er & P1 & P2 & P3 & P4). rewrite Er in E. clear R Er. exists nc. split; [exact Cn|].
  assert (K0 : 0 <= others p nc) by (unfold others, cnt; lia). assert (Bp : 0 <= before nl (nlines p nc)) by (apply before_pos; [exact Nn|apply nlines_nonneg]).
  assert (M : n = others p nc + before nl (nlines p nc) /\ (forall a, a < others p nc -> m a = m0 a) /\ (forall a, others p nc <= a -> (a < n <-> m a <> None))).
  { destruct (before nl (nlines p nc) =? 0) eqn:B0.
    - cbn [bind] in E. injection E as <- <-. apply Z.eqb_eq in B0. split; [reflexivity|]. split; [reflexivity|]. intros a Ha. rewrite B0. rewrite <- P4. lia.
    - destruct (distances g p junk (nlines p nc) 10) as [| |[[dxr dzr] nd]]; cbn [bind] in E; try discriminate.
      pose proof (lines_ok g p junk dxr dzr nl (others p nc) (others p nc + before nl (nlines p nc)) m0 (nlines p nc) K0 (nlines_nonneg p nc) Nn ltac:(lia)) as LO. cbv zeta in LO. destruct LO as (_ & _ & D).
      set (r := fold_left _ _ _) in *. destruct r as [| |[k m']]; cbn [bind] in E; try discriminate. injection E as <- <-. destruct (D _ eq_refl) as (_ & _ & F & S). cbn [fst snd] in F, S. split; [reflexivity|]. split.
      + intros a Ha. apply F. lia.
      + intros a Ha. split; [intros Hl; apply S; lia|]. intros X. destruct (Z_lt_ge_dec a (others p nc + before nl (nlines p nc))); [assumption|]. exfalso. apply X. rewrite F by lia. destruct (m0 a) eqn:Em; [|reflexivity]. exfalso. assert (Y : m0 a <> None) by congruence. apply P4 in Y. lia. }
  destruct M as (En & M1 & M2). split; [|split; [|split; [|split]]].
  - intros c i Hc Hi. assert (Em : m i = Some (on_circle g cosd sind c i)) by (rewrite M1 by (unfold others, cnt; lia); now apply P1). destruct G as (Gx & Gz & _). split.
    + eexists _, _, _. split; [exact Em|]. split; [reflexivity|]. split; [reflexivity|]. split; ring.
    + eexists _, _, _. split; [exact Em|]. split; [reflexivity|]. split; [reflexivity|]. split; apply index_near; try assumption; ring.
  - intros i x z Hi. assert (Li : (i < length (p_txt p))%nat) by (apply nth_error_Some; congruence). eapply receiver_placed; [exact G| | |]; [rewrite M1 by (unfold others, cnt; lia); apply P2; exact Hi|ring|ring].
  - intros i x z Hx Hz. assert (Li : (i < length (p_xa p))%nat) by (apply nth_error_Some; congruence). eapply receiver_placed; [exact G| | |]; [rewrite M1 by (unfold others, cnt; lia); apply P3; eassumption|ring|ring].
  - unfold equal_counts, cnt in Eq. rewrite !andb_true_iff, !Z.eqb_eq in Eq. lia.
  - intros k. destruct (Z_lt_le_dec k (others p nc)) as [Hk|Hk]; [rewrite M1 by exact Hk; rewrite <- P4; lia|]. rewrite <- M2 by exact Hk. lia.
Qed.
Print Assumptions C80_points.

(** nothing is written outside the arrays when the distances are not negative and not more than the lines *)
Theorem C80_safe g p junk cosd sind : (forall c, p_circ p = Some c -> (0 < c_dphi c)%Q) -> (forall s, In s (p_dx p) -> 0 <= s)%Q -> (0 <= g_dx g)%Q ->
  (length (p_dx p) <= max 1 (length (p_x1 p)))%nat -> (length (p_dz p) <= max 1 (length (p_x1 p)))%nat -> recvpar g p junk cosd sind <> Fault.
Proof.
  intros C Pos Gx Lx Lz E. destruct (recvpar_parts g p junk cosd sind C) as (nc & N0 & Cn & Enc & R).
  assert (Eq : equal_counts p = true). { unfold recvpar in E. rewrite Enc in E. cbn [bind] in E. destruct (equal_counts p); [reflexivity|discriminate]. }
  set (n := nlines p nc) in *. assert (Nd : n <> 0 -> cnt (p_dx p) <= n /\ cnt (p_dz p) <= n). { intros H. unfold n, nlines in *. destruct ((others p nc =? 0) && (cnt (p_x1 p) =? 0)) eqn:X; [|unfold cnt in *; lia]. apply andb_true_iff in X. destruct X as [_ X]. apply Z.eqb_eq in X. unfold cnt in *. lia. }
  assert (Df : forall a, n <> 0 -> distances g p junk n a <> Fault). { intros a H. destruct (Nd H). unfold distances. rewrite (proj2 (Z.ltb_ge n (cnt (p_dx p)))), (proj2 (Z.ltb_ge n (cnt (p_dz p)))) by lia. cbn [orb]. destruct (_ || _); [discriminate|]. destruct (negb _); [discriminate|]. destruct (_ && _); discriminate. }
  assert (Dp : forall a dxr dzr nd i, n <> 0 -> distances g p junk n a = Done (dxr, dzr, nd) -> 0 <= i < nd -> (0 <= dxr i)%Q).
  { intros a dxr dzr nd i H ED Hi. destruct (Nd H) as [B1 B2]. unfold distances in ED. rewrite (proj2 (Z.ltb_ge n (cnt (p_dx p)))), (proj2 (Z.ltb_ge n (cnt (p_dz p)))) in ED by lia. cbn [orb] in ED.
    assert (Gp : forall i, 0 <= i -> (i < cnt (p_dx p) \/ p_dx p = [] /\ i = 0) -> (0 <= getpar (p_dx p) (junk a) (g_dx g) i)%Q).
    { intros j Hj [X|[X ->]]; [|rewrite X; cbn [getpar]; rewrite upd_same; exact Gx]. rewrite getpar_in by lia. apply Pos. apply nth_In. unfold cnt in X. lia. }
    destruct (_ || _) eqn:O.
    - injection ED as <- _ <-. replace i with 0 by lia. unfold fill. cbn [Z.leb Z.compare andb]. apply Gp; [lia|]. destruct (p_dx p); [right; now split|left; unfold cnt; cbn; lia].
    - destruct (negb (cnt (p_dx p) =? cnt (p_dz p))); [discriminate|]. destruct (negb (cnt (p_dx p) =? n) && negb (cnt (p_dx p) =? 1)); [discriminate|]. injection ED as <- _ <-. apply Gp; [lia|]. left. lia. }
  destruct (if n =? 0 then Done (fun _ => 0) else counts g p junk n) as [| |nl] eqn:Ec.
  - unfold recvpar in E. rewrite Enc in E. cbn [bind] in E. rewrite Eq in E. cbn [negb] in E. cbv zeta in E. fold n in E. rewrite Ec in E. discriminate.
  - destruct (n =? 0) eqn:Z0; [discriminate|]. apply Z.eqb_neq in Z0. unfold counts in Ec. destruct (distances g p junk n 4) as [| |[[dxr dzr] nd]] eqn:ED; cbn [bind] in Ec; [discriminate|now apply (Df 4)|].
    revert Ec. apply (fold_range_inv (fun k o => o <> Fault)); [apply nlines_nonneg|discriminate|]. intros i o Hi Ho. destruct o as [| |nl]; cbn [bind]; [discriminate|congruence|].
    destruct (line_count g p junk dxr dzr nd i) as [| |c] eqn:El; cbn [bind]; try discriminate. exfalso. unfold line_count in El. destruct (crop _ _ _ _) as [[x1 x2]|]; [|discriminate]. destruct (crop _ _ _ _) as [[z1 z2]|]; [|discriminate].
    destruct (i <? nd) eqn:In'; cbn [andb] in El.
    + apply Z.ltb_lt in In'. rewrite (Qltb_false (dxr i) 0) in El by (apply (Dp 4 dxr dzr nd); [exact Z0|exact ED|lia]). destruct (adjust _ _ _ _ _ _ _ _) as [[? ?] ?]. unfold count in El. destruct (negb _); [discriminate|]. destruct (Qeqb _ _); discriminate.
    + destruct (adjust _ _ _ _ _ _ _ _) as [[? ?] ?]. unfold count in El. destruct (negb _); [discriminate|]. destruct (Qeqb _ _); discriminate.
  - destruct (R nl Eq eq_refl) as (Nn & m0 & Er & _). rewrite Er in E. destruct (before nl n =? 0) eqn:B0; [discriminate|]. destruct (Z.eq_dec n 0) as [Z0|Z0]; [rewrite Z0 in B0; discriminate|].
    destruct (distances g p junk n 10) as [| |[[dxr dzr] nd]] eqn:ED; cbn [bind] in E; [discriminate|now apply (Df 10)|].
    pose proof (lines_ok g p junk dxr dzr nl (others p nc) (others p nc + before nl n) m0 n ltac:(unfold others, cnt; lia) (nlines_nonneg p nc) Nn ltac:(lia)) as LO. cbv zeta in LO. destruct LO as (_ & NF & _).
    set (r := fold_left _ _ _) in *. destruct r as [| |[k m']]; cbn [bind] in E; try discriminate. congruence.
Qed.
Print Assumptions C80_safe.

(** receivers given as points are not moved into the model *)
Theorem C80_outside_refuted : exists m v, recvpar square {| p_x1 := []; p_x2 := []; p_z1 := []; p_z2 := []; p_dx := []; p_dz := []; p_xa := [20%Q]; p_za := [(-3)%Q]; p_txt := []; p_circ := None |} zeros same same = Done (1, m) /\
  m 0 = Some v /\ r_x v = Some 20 /\ r_z v = Some (-3) /\ g_nx square = 11.
Proof. eexists _, _. repeat split; reflexivity. Qed.
Print Assumptions C80_outside_refuted.
Example C80_nonvacuous : exists m v w, recvpar square demo_pars zeros same same = Done (16, m) /\ m 1 = Some v /\ r_x v = Some 10 /\ r_xr v = Some (189 # 1)%Q /\ m 5 = Some w /\ r_x w = Some 3 /\ r_z w = Some 4.
Proof. eexists _, _, _. repeat split; reflexivity. Qed.
