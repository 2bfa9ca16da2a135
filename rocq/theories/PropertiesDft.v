(** Properties of the direct Fourier transforms (C33). *)
From Coq Require Import ZArith Reals List Lia Lra Bool.
From Verif Require Import FdKernels FdProofs FdOutputProofs Marchenko MarchenkoProofs KissFft FftSpec FftAux FftInverse KissFftProofs LibFft.
Import ListNotations.
Local Open Scope Z_scope.

(** ** tables *)
Lemma fold_F {V} (F : Z -> V) (W : Z -> Z -> Prop) (step : (Z -> V) -> Z -> (Z -> V)) :
  (forall m i x, m x = F x -> step m i x = F x) -> (forall m i x, W i x -> step m i x = F x) ->
  forall l m x, (exists i, In i l /\ W i x) -> fold_left step l m x = F x.
Proof.
  intros H1 H2. assert (K : forall l m x, m x = F x -> fold_left step l m x = F x) by (induction l; cbn [fold_left]; auto).
  induction l as [|a l IH]; intros m x (i & I & Wi); [destruct I|]. cbn [fold_left]. destruct I as [-> |I]; [apply K, H2, Wi|]. apply IH. now exists i.
Qed.
Definition angles (n : Z) (x : Z) : R := if Z.even x then cos (2 * PI / IZR n * IZR (x / 2)) else sin (2 * PI / IZR n * IZR (x / 2)).
Lemma angles_even n m : angles n (2 * m) = cos (2 * PI / IZR n * IZR m).
Proof. unfold angles. rewrite Z.even_mul. cbn [Z.even orb]. now rewrite (Z.mul_comm 2), Z.div_mul by lia. Qed.
Lemma angles_odd n m : angles n (2 * m + 1) = sin (2 * PI / IZR n * IZR m).
Proof. unfold angles. rewrite Z.even_add, Z.even_mul. cbn [Z.even orb Bool.eqb]. replace ((2 * m + 1) / 2) with m; [reflexivity|]. apply (Z.div_unique _ _ _ 1); lia. Qed.
Lemma upd_eq {V} (f : Z -> V) a v x : upd f a v x = if x =? a then v else f x.
Proof. reflexivity. Qed.
Lemma upd2_angles n (m : Z -> R) k x : let r := upd (upd m (2 * k) (cos (2 * PI / IZR n * IZR k))) (2 * k + 1) (sin (2 * PI / IZR n * IZR k)) in
  (m x = angles n x -> r x = angles n x) /\ (x = 2 * k \/ x = 2 * k + 1 -> r x = angles n x).
Proof.
  cbv zeta. rewrite !upd_eq. destruct (Z.eqb_spec x (2 * k + 1)) as [-> |N1]; [rewrite angles_odd; auto|]. destruct (Z.eqb_spec x (2 * k)) as [-> |N2]; [rewrite angles_even; auto|]. split; [auto|lia].
Qed.
Lemma dft_table_at n x : 0 <= x < 2 * n -> dft_table n x = angles n x.
Proof.
  intros Hx. unfold dft_table. apply (fold_F (angles n) (fun i x => x = 2 * i \/ x = 2 * i + 1)).
  - intros m i y. apply (upd2_angles n m i y).
  - intros m i y. apply (upd2_angles n m i y).
  - exists (x / 2). pose proof (Z.div_mod x 2 ltac:(lia)). pose proof (Z.mod_pos_bound x 2 ltac:(lia)). split; [apply in_range|]; lia.
Qed.
Lemma product_table_at n a b i j : 0 <= i < a -> 0 <= j < b -> product_table n a b (2 * i * j) = cos (2 * PI / IZR n * IZR (i * j)) /\ product_table n a b (2 * i * j + 1) = sin (2 * PI / IZR n * IZR (i * j)).
Proof.
  intros Hi Hj. replace (2 * i * j) with (2 * (i * j)) by ring. rewrite <- angles_even, <- angles_odd.
  assert (A : forall x, x = 2 * (i * j) \/ x = 2 * (i * j) + 1 -> product_table n a b x = angles n x).
  { intros x Hx. unfold product_table. apply (fold_F (angles n) (fun i x => exists j, 0 <= j < b /\ (x = 2 * (i * j) \/ x = 2 * (i * j) + 1))).
    - intros m k y H. revert m H. induction (range 0 b) as [|l ls IH]; intros m H; cbn [fold_left]; [exact H|]. apply IH. replace (2 * k * l) with (2 * (k * l)) by ring. exact (proj1 (upd2_angles n m (k * l) y) H).
    - intros m k y (l & Hl & Hy). apply (fold_F (angles n) (fun j x => x = 2 * (k * j) \/ x = 2 * (k * j) + 1)).
      + intros m' l' y'. replace (2 * k * l') with (2 * (k * l')) by ring. exact (proj1 (upd2_angles n m' (k * l') y')).
      + intros m' l' y'. replace (2 * k * l') with (2 * (k * l')) by ring. exact (proj2 (upd2_angles n m' (k * l') y')).
      + exists l. split; [apply in_range; lia|exact Hy].
    - exists i. split; [apply in_range; lia|]. exists j. split; [exact Hj|exact Hx]. }
  split; apply A; auto.
Qed.
Lemma root_angle n s m : n <> 0 -> root n s m = (cos (2 * PI / IZR n * IZR m), (IZR s * sin (2 * PI / IZR n * IZR m))%R).
Proof. intros Hn. unfold root. replace (2 * PI * IZR m / IZR n)%R with (2 * PI / IZR n * IZR m)%R by (unfold Rdiv; ring). reflexivity. Qed.
Lemma fold_left_ext {A B} (f g : A -> B -> A) l : (forall a b, In b l -> f a b = g a b) -> forall a, fold_left f l a = fold_left g l a.
Proof. induction l as [|b l IH]; intros H a; cbn [fold_left]; [reflexivity|]. rewrite H by now left. apply IH. intros; apply H; now right. Qed.
Lemma fold_write {V} (f : Z -> V) n m x : fold_left (fun c i => upd c i (f i)) (range 0 n) m x = if (0 <=? x) && (x <? n) then f x else m x.
Proof.
  destruct ((0 <=? x) && (x <? n)) eqn:E.
  - rewrite (fold_upd_hit (fun i => i) (fun i _ => f i)); [reflexivity|rewrite map_id; apply range_NoDup|apply in_range; lia].
  - rewrite (fold_upd_miss (fun i => i) (fun i _ => f i)); [reflexivity|rewrite map_id; rewrite in_range; lia].
Qed.
Definition known (t : Z * (Z -> R)) (make : Z -> Z -> R) : Prop := fst t <= 0 \/ snd t = make (fst t).

(** ** C33 *)
(** the table of ccdft after any history of calls with lengths n >= 1 *)
Definition ccdft_table (junk : Z -> R) (history : list ((Z -> C) * Z * Z)) : Z * (Z -> R) :=
  fold_left (fun t c => fst (ccdft t (fst (fst c)) (snd (fst c)) (snd c))) history (0, junk).
Theorem C33_complex junk history x n sign : (forall c, In c history -> 1 <= snd (fst c)) -> 1 <= n -> sign = 1 \/ sign = -1 ->
  forall k, snd (ccdft (ccdft_table junk history) x n sign) k = if (0 <=? k) && (k <? n) then dft n sign x k else x k.
Proof.
  intros Hh Hn Hs k.
  assert (K : known (ccdft_table junk history) dft_table).
  { unfold ccdft_table. assert (K0 : known (0, junk) dft_table) by (left; cbn; lia). revert K0. generalize (0, junk). induction history as [|c cs IH]; intros t Kt; cbn [fold_left]; [exact Kt|].
    apply IH; [intros; apply Hh; now right|]. unfold ccdft. cbn [fst]. destruct (fst t =? snd (fst c)); [exact Kt|now right]. }
  set (t := ccdft_table junk history) in *. clearbody t. unfold ccdft. cbn [snd]. rewrite fold_write. destruct ((0 <=? k) && (k <? n)) eqn:E; [|reflexivity].
  set (t' := if fst t =? n then t else (n, dft_table n)). assert (T : snd t' = dft_table n). { unfold t'. destruct (Z.eqb_spec (fst t) n) as [E'|]; [|reflexivity]. destruct K as [K|K]; [lia|]. now rewrite K, E'. }
  rewrite T. unfold dft. rewrite <- fold_total. unfold c0. apply fold_left_ext. intros [a b] j Hj. apply in_range in Hj.
  pose proof (Z.mod_pos_bound (k * j) n ltac:(lia)). rewrite !dft_table_at by lia. rewrite angles_even, angles_odd. rewrite <- (root_mod sign Hs n (j * k)) by lia. rewrite (Z.mul_comm j k), root_angle by lia.
  destruct (x j) as [u v]. unfold cadd, times. cbn [fst snd]. f_equal; ring.
Qed.
Print Assumptions C33_complex.

(** the real transform *)
Definition rcdft_table (junk : Z -> R) (history : list ((Z -> R) * (Z -> C) * Z * Z)) : Z * (Z -> R) :=
  fold_left (fun t c => fst (rcdft t (fst (fst (fst c))) (snd (fst (fst c))) (snd (fst c)) (snd c))) history (0, junk).
Theorem C33_real junk history x c n sign : (forall c, In c history -> 1 <= snd (fst c)) -> 1 <= n -> sign = 1 \/ sign = -1 ->
  forall k, snd (rcdft (rcdft_table junk history) x c n sign) k = if (0 <=? k) && (k <=? n / 2) then dft n sign (real_values x) k else c k.
Proof.
  intros Hh Hn Hs k.
  assert (K : known (rcdft_table junk history) (fun n => product_table n ((n + 2) / 2) n)).
  { unfold rcdft_table. assert (K0 : known (0, junk) (fun n => product_table n ((n + 2) / 2) n)) by (left; cbn; lia). revert K0. generalize (0, junk). induction history as [|h cs IH]; intros t Kt; cbn [fold_left]; [exact Kt|].
    apply IH; [intros; apply Hh; now right|]. unfold rcdft. cbn [fst]. destruct (fst t =? snd (fst h)); [exact Kt|now right]. }
  set (t := rcdft_table junk history) in *. clearbody t. unfold rcdft. cbn [snd]. rewrite fold_write.
  assert (Enc : (n + 2) / 2 = n / 2 + 1) by (replace (n + 2) with (n + 1 * 2) by ring; apply Z.div_add; lia).
  replace (k <? (n + 2) / 2) with (k <=? n / 2) by lia. destruct ((0 <=? k) && (k <=? n / 2)) eqn:E; [|reflexivity].
  set (t' := if fst t =? n then t else (n, product_table n ((n + 2) / 2) n)). assert (T : snd t' = product_table n ((n + 2) / 2) n). { unfold t'. destruct (Z.eqb_spec (fst t) n) as [E'|]; [|reflexivity]. destruct K as [K|K]; [lia|]. now rewrite K, E'. }
  rewrite T. unfold dft. rewrite <- fold_total. unfold c0. apply fold_left_ext. intros [a b] j Hj. apply in_range in Hj.
  destruct (product_table_at n ((n + 2) / 2) n k j) as [-> ->]; [lia|lia|]. rewrite (Z.mul_comm j k), root_angle by lia.
  unfold cadd, times, real_values. cbn [fst snd]. f_equal; ring.
Qed.
Print Assumptions C33_real.

(** ** the complex-to-real transform *)
Lemma total_first n f : total (S n) f = cadd (f 0) (total n (fun i => f (1 + i))).
Proof. change (S n) with (1 + n)%nat. rewrite total_app. cbn [total]. change (Z.of_nat 0) with 0. change (Z.of_nat 1) with 1. change plus with cadd. change (0, 0)%R with c0. ring. Qed.
Lemma total_rev n f : total n (fun i => f (Z.of_nat n - 1 - i)) = total n f.
Proof.
  revert f. induction n as [|n IH]; intros f; [reflexivity|]. rewrite total_first. cbn [total]. change plus with cadd.
  replace (Z.of_nat (S n) - 1 - 0) with (Z.of_nat n) by lia. rewrite <- (IH f). rewrite (total_ext n (fun i => f (Z.of_nat (S n) - 1 - (1 + i))) (fun i => f (Z.of_nat n - 1 - i))); [ring|]. intros i Hi. f_equal. lia.
Qed.
Lemma total_conj n f : total n (fun i => conj (f i)) = conj (total n f).
Proof. induction n as [|n IH]; cbn [total]; [unfold conj; cbn [fst snd]; f_equal; ring|]. rewrite IH. unfold plus, conj. cbn [fst snd]. f_equal; ring. Qed.
Lemma conj_cmul a b : conj (cmul a b) = cmul (conj a) (conj b).
Proof. unfold conj, cmul. cbn [fst snd]. f_equal; ring. Qed.
Section Hermitian.
Variables (n s : Z) (c : Z -> C) (i : Z).
Hypothesis Hn : 1 <= n.
Hypothesis Hs : s = 1 \/ s = -1.
Let g j := cmul (c j) (root n s (j * i)).
Let m := (n - 1) / 2.
Lemma m_parity : if Z.odd n then n = 2 * m + 1 else n = 2 * m + 2.
Proof. unfold m. pose proof (Zdiv2_odd_eqn n) as E. destruct (Z.odd n); [replace (n - 1) with (Z.div2 n * 2) by lia; rewrite Z.div_mul; lia|]. replace (n - 1) with (1 + (Z.div2 n - 1) * 2) by lia. rewrite Z.div_add by lia. change (1 / 2) with 0. lia. Qed.
Lemma m_pos : 0 <= m.
Proof. apply Z.div_pos; lia. Qed.
Let T := total (Z.to_nat m) (fun t => g (1 + t)).
Definition middle : C := if Z.odd n then c0 else cmul (fst (c (n / 2)), 0%R) (root n s (n / 2 * i)).
Lemma hermitian_sum : dft n s (hermitian n c) i = cadd (cadd (fst (c 0), 0%R) T) (cadd middle (conj T)).
Proof.
  pose proof m_parity as P. pose proof m_pos as M.
  assert (A : forall t, 0 <= t < m -> times (hermitian n c (1 + t)) (root n s ((1 + t) * i)) = g (1 + t)).
  { intros t Ht. unfold hermitian. destruct (Z.eqb_spec (1 + t) 0); [lia|]. destruct (Z.ltb_spec (2 * (1 + t)) n); [reflexivity|]. destruct (Z.odd n); lia. }
  assert (B : forall t, 0 <= t < m -> times (hermitian n c (n - 1 - t)) (root n s ((n - 1 - t) * i)) = conj (g (1 + t))).
  { intros t Ht. unfold hermitian. destruct (Z.eqb_spec (n - 1 - t) 0); [destruct (Z.odd n); lia|]. destruct (Z.ltb_spec (2 * (n - 1 - t)) n); [destruct (Z.odd n); lia|]. destruct (Z.eqb_spec (2 * (n - 1 - t)) n); [destruct (Z.odd n); lia|].
    replace (n - (n - 1 - t)) with (1 + t) by ring. unfold g. rewrite conj_cmul. rewrite times_cmul. f_equal.
    replace ((n - 1 - t) * i) with (n * i + - ((1 + t) * i)) by ring. rewrite root_add, root_mult, root_opp by (assumption || lia). ring. }
  assert (C0 : times (hermitian n c 0) (root n s (0 * i)) = (fst (c 0), 0%R)).
  { unfold hermitian. cbn [Z.eqb]. rewrite Z.mul_0_l, root_0. unfold times, c1. cbn [fst snd]. f_equal; ring. }
  unfold dft, middle. destruct (Z.odd n) eqn:O.
  - replace (Z.to_nat n) with (S (Z.to_nat m + Z.to_nat m)) by lia. rewrite total_first, total_app, C0.
    rewrite (total_ext _ (fun i0 => times (hermitian n c (1 + i0)) (root n s ((1 + i0) * i))) (fun t => g (1 + t))) by (intros t Ht; apply A; lia). fold T.
    replace (total (Z.to_nat m) (fun i0 => times (hermitian n c (1 + (Z.of_nat (Z.to_nat m) + i0))) (root n s ((1 + (Z.of_nat (Z.to_nat m) + i0)) * i)))) with (conj T); [ring|].
    unfold T. rewrite <- total_conj, <- total_rev. apply total_ext. intros t Ht. rewrite Z2Nat.id in * by lia. rewrite <- B by lia. match goal with |- context [hermitian n c ?k = _] => idtac | |- times (hermitian n c ?a) _ = times (hermitian n c ?b) _ => replace a with b by lia end. reflexivity.
  - replace (Z.to_nat n) with (S (Z.to_nat m + S (Z.to_nat m))) by lia. rewrite total_first, total_app, total_first, C0.
    rewrite (total_ext _ (fun i0 => times (hermitian n c (1 + i0)) (root n s ((1 + i0) * i))) (fun t => g (1 + t))) by (intros t Ht; apply A; lia). fold T. rewrite Z2Nat.id by lia.
    replace (n / 2) with (1 + (m + 0)) by (apply (Z.div_unique n 2 _ 0); lia).
    replace (hermitian n c (1 + (m + 0))) with (fst (c (1 + (m + 0))), 0%R); [|unfold hermitian; destruct (Z.eqb_spec (1 + (m + 0)) 0); [lia|]; destruct (Z.ltb_spec (2 * (1 + (m + 0))) n); [lia|]; destruct (Z.eqb_spec (2 * (1 + (m + 0))) n); [reflexivity|lia]].
    rewrite times_cmul. rewrite <- times_cmul.
    replace (total (Z.to_nat m) (fun i0 => times (hermitian n c (1 + (m + (1 + i0)))) (root n s ((1 + (m + (1 + i0))) * i)))) with (conj T); [rewrite times_cmul; ring|].
    unfold T. rewrite <- total_conj, <- total_rev. apply total_ext. intros t Ht. rewrite Z2Nat.id in * by lia. rewrite <- B by lia. match goal with |- context [hermitian n c ?k = _] => idtac | |- times (hermitian n c ?a) _ = times (hermitian n c ?b) _ => replace a with b by lia end. reflexivity.
Qed.
Lemma half_sum : (2 * fst (total (Z.to_nat ((n + 2) / 2)) g) - fst (c 0))%R = (fst (dft n s (hermitian n c) i) + fst middle)%R.
Proof.
  rewrite hermitian_sum. pose proof m_parity as P. pose proof m_pos as M. unfold middle.
  assert (G0 : fst (g 0) = fst (c 0)) by (unfold g, cmul; rewrite Z.mul_0_l, root_0; unfold c1; cbn [fst snd]; ring).
  destruct (Z.odd n) eqn:O.
  - replace ((n + 2) / 2) with (1 + m) by (apply (Z.div_unique (n + 2) 2 _ 1); lia). replace (Z.to_nat (1 + m)) with (S (Z.to_nat m)) by lia. rewrite total_first. fold T.
    unfold cadd, conj, c0. cbn [fst snd]. rewrite G0. ring.
  - replace ((n + 2) / 2) with (2 + m) by (apply (Z.div_unique (n + 2) 2 _ 0); lia). replace (Z.to_nat (2 + m)) with (S (S (Z.to_nat m))) by lia. rewrite total_first. cbn [total]. rewrite Z2Nat.id by lia.
    replace (n / 2) with (1 + m) by (apply (Z.div_unique n 2 _ 0); lia).
    assert (Gm : fst (g (1 + m)) = fst (cmul (fst (c (1 + m)), 0%R) (root n s ((1 + m) * i)))).
    { unfold g, cmul. cbn [fst snd]. assert (Z0 : snd (root n s ((1 + m) * i)) = 0%R).
      { rewrite root_angle by lia. cbn [snd]. replace (2 * PI / IZR n * IZR ((1 + m) * i))%R with (IZR i * PI)%R; [rewrite (sin_eq_0_1 (IZR i * PI)); [ring|now exists i]|]. rewrite P. rewrite mult_IZR. replace (IZR (2 * m + 2)) with (2 * IZR (1 + m))%R by (rewrite <- mult_IZR; f_equal; lia). field. apply not_0_IZR. lia. }
      rewrite Z0. ring. }
    fold T. unfold cadd, plus, conj. cbn [fst snd]. rewrite G0, Gm. fold T. ring.
Qed.
End Hermitian.
Lemma middle_value n s c i : 1 <= n -> Z.odd n = false -> fst (middle n s c i) = (fst (c (n / 2)%Z) * cos (IZR i * PI))%R.
Proof.
  intros Hn O. unfold middle. rewrite O. unfold cmul. cbn [fst snd]. rewrite root_angle by lia. cbn [fst snd].
  pose proof (Zdiv2_odd_eqn n) as E. rewrite O in E. rewrite <- Z.div2_div. set (h := Z.div2 n) in *. replace (2 * PI / IZR n * IZR (h * i))%R with (IZR i * PI)%R; [ring|].
  rewrite mult_IZR. rewrite E. replace (IZR (2 * h + 0)) with (2 * IZR h)%R by (rewrite <- mult_IZR; f_equal; lia). field. apply not_0_IZR. lia.
Qed.
Lemma cos_turns k : cos (2 * IZR k * PI) = 1%R.
Proof.
  pose proof (root_mult 1 (or_introl eq_refl) 1 k ltac:(lia)) as E. apply (f_equal fst) in E. unfold root, c1 in E. cbn [fst] in E. rewrite <- E. f_equal. rewrite Z.mul_1_l. field.
Qed.
Lemma cos_parity i : cos (IZR i * PI) = if Z.odd i then (-1)%R else 1%R.
Proof.
  pose proof (Zdiv2_odd_eqn i) as E. destruct (Z.odd i).
  - rewrite E, plus_IZR, mult_IZR. replace ((2 * IZR (Z.div2 i) + 1) * PI)%R with (2 * IZR (Z.div2 i) * PI + PI)%R by ring. rewrite neg_cos, cos_turns. reflexivity.
  - rewrite E, Z.add_0_r, mult_IZR. apply cos_turns.
Qed.
Lemma correction_loop (scl : R) h : 0 <= h -> forall (r : Z -> R) x,
  fold_left (fun r i => upd (upd r (2 * i) (r (2 * i)%Z - scl)%R) (2 * i + 1) (r (2 * i + 1)%Z + scl)%R) (range 0 h) r x =
  if (0 <=? x) && (x <? 2 * h) then (if Z.odd x then r x + scl else r x - scl)%R else r x.
Proof.
  revert h. refine (natlike_ind _ _ _).
  - intros r x. rewrite range_nil by lia. destruct (Z.leb_spec 0 x), (Z.ltb_spec x (2 * 0)); cbn; try reflexivity; lia.
  - intros h Hh IH r x. unfold Z.succ. rewrite range_snoc, fold_left_app by lia. cbn [fold_left]. rewrite !upd_eq, !IH.
    destruct (Z.eqb_spec x (2 * h + 1)) as [-> |N1]; [|destruct (Z.eqb_spec x (2 * h)) as [-> |N2]].
    + replace ((0 <=? 2 * h + 1) && (2 * h + 1 <? 2 * h)) with false by lia. replace ((0 <=? 2 * h + 1) && (2 * h + 1 <? 2 * (h + 1))) with true by lia. rewrite Z.odd_add, Z.odd_mul. reflexivity.
    + replace ((0 <=? 2 * h) && (2 * h <? 2 * h)) with false by lia. replace ((0 <=? 2 * h) && (2 * h <? 2 * (h + 1))) with true by lia. rewrite Z.odd_mul. reflexivity.
    + replace ((0 <=? x) && (x <? 2 * (h + 1))) with ((0 <=? x) && (x <? 2 * h)) by lia. reflexivity.
Qed.

(** What the complex-to-real transform computes, for every length: for even lengths the value at n/2 is
    counted twice and n/4 is taken off, with alternating signs. *)
Definition crdft_table (junk : Z -> R) (history : list ((Z -> C) * (Z -> R) * Z * Z)) : Z * (Z -> R) :=
  fold_left (fun t c => fst (crdft t (fst (fst (fst c))) (snd (fst (fst c))) (snd (fst c)) (snd c))) history (0, junk).
Theorem C33_back junk history c r n sign : (forall c, In c history -> 1 <= snd (fst c)) -> 1 <= n -> sign = 1 \/ sign = -1 ->
  forall k, snd (crdft (crdft_table junk history) c r n sign) k =
    if (0 <=? k) && (k <? n) then
      (fst (dft n sign (hermitian n c) k) + if Z.odd n then 0 else (if Z.odd k then -1 else 1) * (fst (c (n / 2)%Z) - IZR n / 4))%R
    else r k.
Proof.
  intros Hh Hn Hs k.
  assert (K : known (crdft_table junk history) (fun n => product_table n n ((n + 2) / 2))).
  { unfold crdft_table. assert (K0 : known (0, junk) (fun n => product_table n n ((n + 2) / 2))) by (left; cbn; lia). revert K0. generalize (0, junk). induction history as [|h cs IH]; intros t Kt; cbn [fold_left]; [exact Kt|].
    apply IH; [intros; apply Hh; now right|]. unfold crdft. cbn [fst]. destruct (fst t =? snd (fst h)); [exact Kt|now right]. }
  set (t := crdft_table junk history) in *. clearbody t. unfold crdft. cbn [snd].
  set (t' := if fst t =? n then t else (n, product_table n n ((n + 2) / 2))). assert (T : snd t' = product_table n n ((n + 2) / 2)). { unfold t'. destruct (Z.eqb_spec (fst t) n) as [E'|]; [|reflexivity]. destruct K as [K|K]; [lia|]. now rewrite K, E'. }
  rewrite T. clear t' T.
  assert (S : forall i, 0 <= i < n -> fold_left (fun s j => s + (fst (c j) * product_table n n ((n + 2) / 2) (2 * i * j)%Z - IZR sign * snd (c j) * product_table n n ((n + 2) / 2) (2 * i * j + 1)%Z))%R (range 0 ((n + 2) / 2)) 0%R
    = fst (total (Z.to_nat ((n + 2) / 2)) (fun j => cmul (c j) (root n sign (j * i))))).
  { intros i Hi. rewrite <- fold_total. assert (F : forall l, (forall j, In j l -> 0 <= j < (n + 2) / 2) -> forall a b, a = fst b ->
      fold_left (fun s j => s + (fst (c j) * product_table n n ((n + 2) / 2) (2 * i * j)%Z - IZR sign * snd (c j) * product_table n n ((n + 2) / 2) (2 * i * j + 1)%Z))%R l a = fst (fold_left (fun s j => cadd s (cmul (c j) (root n sign (j * i)))) l b)).
    { induction l as [|j l IH]; intros Hl a b Eab; cbn [fold_left]; [exact Eab|]. apply IH; [intros; apply Hl; now right|]. destruct (product_table_at n n ((n + 2) / 2) i j) as [-> ->]; [lia|apply Hl; now left|].
      rewrite (Z.mul_comm j i), root_angle by lia. unfold cadd, cmul. cbn [fst snd]. rewrite Eab. ring. }
    apply F; [intros j Hj; now apply in_range in Hj|reflexivity]. }
  pose proof (half_sum n sign c k Hn Hs) as Hf.
  destruct (Z.odd n) eqn:O.
  - rewrite fold_write. destruct ((0 <=? k) && (k <? n)) eqn:E; [|reflexivity]. rewrite S by lia. rewrite Hf. unfold middle. rewrite O. reflexivity.
  - pose proof (Zdiv2_odd_eqn n) as En. rewrite O in En. replace ((n + 2) / 2 - 1) with (Z.div2 n) by (assert ((n + 2) / 2 = Z.div2 n + 1) by (symmetry; apply (Z.div_unique (n + 2) 2 _ 0); lia); lia).
    rewrite correction_loop by lia. rewrite fold_write. replace (k <? 2 * Z.div2 n) with (k <? n) by (f_equal; lia). destruct ((0 <=? k) && (k <? n)) eqn:E; [|reflexivity]. rewrite S by lia. rewrite Hf, middle_value, cos_parity by assumption. destruct (Z.odd k); field.
Qed.
Print Assumptions C33_back.

(** Forward and back: n times the input for odd n. *)
Lemma hermitian_real n s x : 1 <= n -> s = 1 \/ s = -1 -> forall k, 0 <= k < n -> hermitian n (dft n s (real_values x)) k = dft n s (real_values x) k.
Proof.
  intros Hn Hs k Hk. set (X := dft n s (real_values x)).
  assert (Sy : forall k, X (n - k) = conj (X k)).
  { intros j. unfold X, dft. rewrite <- total_conj. apply total_ext. intros i Hi. rewrite times_cmul, conj_cmul. f_equal; [unfold real_values, conj; cbn [fst snd]; f_equal; ring|].
    replace (i * (n - j)) with (n * i + - (i * j)) by ring. rewrite root_add, root_mult, root_opp by (assumption || lia). ring. }
  unfold hermitian. destruct (Z.eqb_spec k 0) as [-> |N0].
  - assert (E : X n = conj (X 0)) by (rewrite <- Sy; f_equal; lia). assert (E' : X n = X 0).
    { unfold X, dft. apply total_ext. intros i _. rewrite Z.mul_0_r, (Z.mul_comm i n), root_mult, root_0 by (assumption || lia). reflexivity. }
    rewrite E' in E. apply (f_equal snd) in E. unfold conj in E. cbn [snd] in E. destruct (X 0) as [u v]. cbn [fst snd] in *. f_equal. lra.
  - destruct (Z.ltb_spec (2 * k) n); [reflexivity|]. destruct (Z.eqb_spec (2 * k) n) as [E2|N2].
    + pose proof (Sy k) as E. replace (n - k) with k in E by lia. apply (f_equal snd) in E. unfold conj in E. cbn [snd] in E. destruct (X k) as [u v]. cbn [fst snd] in *. f_equal. lra.
    + rewrite Sy. unfold conj. cbn [fst snd]. destruct (X k) as [u v]. cbn [fst snd]. f_equal. ring.
Qed.
Theorem C33_round_trip j1 h1 j2 h2 x c r n sign :
  (forall c, In c h1 -> 1 <= snd (fst c)) -> (forall c, In c h2 -> 1 <= snd (fst c)) -> 1 <= n -> sign = 1 \/ sign = -1 ->
  let c' := snd (rcdft (rcdft_table j1 h1) x c n sign) in
  forall k, 0 <= k < n -> snd (crdft (crdft_table j2 h2) c' r n (- sign)) k =
    (IZR n * x k + if Z.odd n then 0 else (if Z.odd k then -1 else 1) * (fst (dft n sign (real_values x) (n / 2)) - IZR n / 4))%R.
Proof.
  intros H1 H2 Hn Hs c' k Hk. rewrite C33_back by (assumption || lia). replace ((0 <=? k) && (k <? n)) with true by lia.
  assert (Half : 0 <= n / 2 < n) by (split; [apply Z.div_pos; lia|apply Z.div_lt; lia]).
  assert (E : forall i, 0 <= i <= n / 2 -> c' i = dft n sign (real_values x) i). { intros i Hi. unfold c'. rewrite C33_real by assumption. replace ((0 <=? i) && (i <=? n / 2)) with true by lia. reflexivity. }
  f_equal; [|rewrite E by lia; reflexivity].
  replace (dft n (- sign) (hermitian n c') k) with (dft n (- sign) (dft n sign (real_values x)) k).
  - rewrite dft_inverse by assumption. reflexivity.
  - unfold dft at 1 3. apply total_ext. intros i Hi. f_equal. rewrite <- hermitian_real by (assumption || lia). pose proof (Z.div_mod n 2 ltac:(lia)). pose proof (Z.mod_pos_bound n 2 ltac:(lia)).
    unfold hermitian. destruct (Z.eqb_spec i 0); [rewrite E by lia; reflexivity|]. destruct (Z.ltb_spec (2 * i) n); [rewrite E by lia; reflexivity|]. destruct (Z.eqb_spec (2 * i) n); rewrite E by lia; reflexivity.
Qed.
Print Assumptions C33_round_trip.
Corollary C33_round_trip_odd j1 h1 j2 h2 x c r n sign :
  (forall c, In c h1 -> 1 <= snd (fst c)) -> (forall c, In c h2 -> 1 <= snd (fst c)) -> 1 <= n -> sign = 1 \/ sign = -1 -> Z.odd n = true ->
  forall k, 0 <= k < n -> snd (crdft (crdft_table j2 h2) (snd (rcdft (rcdft_table j1 h1) x c n sign)) r n (- sign)) k = (IZR n * x k)%R.
Proof. intros H1 H2 Hn Hs O k Hk. rewrite C33_round_trip by assumption. rewrite O. ring. Qed.
Print Assumptions C33_round_trip_odd.
(** For every even length it fails: the zero signal comes back as -n/4, n/4, ... *)
Theorem C33_even_refuted n c r sign : 1 <= n -> Z.odd n = false -> sign = 1 \/ sign = -1 ->
  snd (crdft (0, fun _ => 0%R) (snd (rcdft (0, fun _ => 0%R) (fun _ => 0%R) c n sign)) r n (- sign)) 0 <> (IZR n * 0)%R.
Proof.
  intros Hn O Hs. pose proof (C33_round_trip (fun _ => 0%R) [] (fun _ => 0%R) [] (fun _ => 0%R) c r n sign) as K. cbv zeta in K. unfold crdft_table, rcdft_table in K. cbn [fold_left] in K. rewrite K by (assumption || lia || (intros ? [])). rewrite O. cbn [Z.odd].
  unfold dft. rewrite total_zero by (intros i _; unfold real_values, times, c0; cbn [fst snd]; f_equal; ring). unfold c0. cbn [fst]. assert (0 < IZR n)%R by (apply IZR_lt; lia). lra.
Qed.
Print Assumptions C33_even_refuted.
(** lengths for which the programs use these routines: neither a power of two nor supported *)
Example C33_nonvacuous : Z.odd 17 = true /\ prime_factor 17 = false /\ Z.odd 34 = false /\ prime_factor 34 = false /\
  snd (crdft (0, fun _ => 0%R) (fun _ => (1, 0)%R) (fun _ => 0%R) 1 1) 0 = 1%R.
Proof.
  repeat (split; [vm_compute; reflexivity|]). pose proof (C33_back (fun _ => 0%R) [] (fun _ => (1, 0)%R) (fun _ => 0%R) 1 1) as K. unfold crdft_table in K. cbn [fold_left] in K. rewrite K by (try lia; intros ? []). cbn [Z.leb Z.ltb Z.compare andb Pos.compare Pos.compare_cont Z.odd].
  unfold dft. change (Z.to_nat 1) with 1%nat. cbn [total Z.of_nat]. rewrite Z.mul_0_l, root_0. unfold hermitian, plus, times, c1. cbn. ring.
Qed.
