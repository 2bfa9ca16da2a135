(** The passes of the prime-factor transform and their combination. *)
From Coq Require Import ZArith Znumtheory Reals List Lia Lra Ring.
From Verif Require Import FdKernels FdProofs FdOutputProofs Marchenko MarchenkoProofs KissFft FftSpec FftAux FftInverse KissFftProofs Pfa PfaModules.
Import ListNotations.
Local Open Scope Z_scope.

(** ** every factor *)
Lemma module_ok f mu z : In f kfax -> 0 < mu < f -> Z.gcd mu f = 1 -> module f mu z = rotated f mu z.
Proof.
  intros Hf Hm Hg. unfold kfax in Hf. cbn [In] in Hf.
  assert (I : In mu (range 1 f)) by (apply in_range; lia). clear Hm.
  repeat destruct Hf as [<- |Hf]; [..|destruct Hf]; unfold module; cbn [Z.eqb Pos.eqb];
  [apply module16_ok|apply module13_ok|apply module11_ok|apply module9_ok|apply module8_ok|apply module7_ok|apply module5_ok|apply module4_ok|apply module3_ok|apply module2_ok];
  cbn in I; repeat (destruct I as [<- |I]; [try discriminate Hg; cbn; tauto|]); destruct I.
Qed.
Lemma range_length a b : length (range a b) = Z.to_nat (b - a).
Proof. unfold range. now rewrite map_length, seq_length. Qed.
Lemma range_nth k b d : 0 <= k < b -> nth (Z.to_nat k) (range 0 b) d = k.
Proof.
  intros Hk. unfold range. rewrite (nth_indep _ d (0 + Z.of_nat 0)) by (rewrite map_length, seq_length; lia). rewrite (map_nth (fun i => 0 + Z.of_nat i)), seq_nth by lia. lia.
Qed.
Lemma rotated_length f mu z : 0 <= f -> length (rotated f mu z) = Z.to_nat f.
Proof. intros Hf. unfold rotated. rewrite map_length. rewrite range_length. f_equal. lia. Qed.

(** ** writing cells *)
Lemma store_miss js : forall mem vs j, ~ In j js -> store mem js vs j = mem j.
Proof.
  induction js as [|a js IH]; intros mem vs j H; [reflexivity|]. destruct vs as [|v vs]; [reflexivity|]. cbn [store]. rewrite IH by (intros Hi; apply H; now right). apply upd_other. intros ->. apply H. now left.
Qed.
Lemma store_hit js : forall mem vs k, NoDup js -> length vs = length js -> (k < length js)%nat -> store mem js vs (nth k js 0) = nth k vs c0.
Proof.
  induction js as [|a js IH]; intros mem vs k N L Hk; [cbn in Hk; lia|]. destruct vs as [|v vs]; [discriminate|]. inversion N as [|? ? N1 N2]. subst. cbn [store]. destruct k as [|k]; cbn [nth].
  - rewrite store_miss by exact N1. apply upd_same.
  - apply IH; [exact N2|cbn in L; lia|cbn in Hk; lia].
Qed.

(** ** the rotation *)
Lemma find_mu_ok ifac m j0 fuel : forall j, j <= j0 < j + Z.of_nat fuel -> (j0 * m) mod ifac = 1 -> j <= find_mu fuel j ifac m <= j0 /\ (find_mu fuel j ifac m * m) mod ifac = 1.
Proof.
  induction fuel as [|fuel IH]; intros j Hj H0; [lia|]. cbn [find_mu]. destruct (Z.eqb_spec ((j * m) mod ifac) 1) as [E|E]; [lia|].
  assert (j <> j0) by (intros ->; contradiction). destruct (IH (j + 1) ltac:(lia) H0). lia.
Qed.
Lemma inverse_mod f m : 1 < f -> Z.gcd f m = 1 -> exists j, 0 < j < f /\ (j * m) mod f = 1.
Proof.
  intros Hf Hg. destruct (Z.gcd_bezout f m 1 Hg) as (u & v & E). exists (v mod f).
  assert (Q : ((v mod f) * m) mod f = 1) by (rewrite Z.mul_mod_idemp_l by lia; replace (v * m) with (1 + (- u) * f) by lia; rewrite Z.mod_add by lia; apply Z.mod_small; lia).
  split; [|exact Q]. pose proof (Z.mod_pos_bound v f). destruct (Z.eq_dec (v mod f) 0) as [E0|]; [|lia]. rewrite E0, Z.mul_0_l, Z.mod_0_l in Q by lia. lia.
Qed.

Section Pass.
Variables f m mu0 : Z.
Hypothesis Hf : In f kfax.
Hypothesis Hm : 0 < m.
Hypothesis Hmu : 0 < mu0 < f.
Hypothesis Hinv : (mu0 * m) mod f = 1.
Let n := f * m.
Let mm := mu0 * m.
Lemma f_gt : 1 < f. Proof. lia. Qed.
Lemma coprime_fm : Z.gcd f m = 1.
Proof.
  apply Zgcd_1_rel_prime. apply bezout_rel_prime. pose proof (Z.div_mod (mu0 * m) f ltac:(lia)) as D. rewrite Hinv in D. apply (Bezout_intro f m 1 (- (mu0 * m / f)) mu0). nia.
Qed.
(** the cell with residue q modulo f and l modulo m *)
Definition pos (q l : Z) : Z := (q * mm + l * (1 - mm)) mod n.
Lemma pos_range q l : 0 <= pos q l < n.
Proof. apply Z.mod_pos_bound. unfold n. nia. Qed.
Lemma mod_n_f a : (a mod n) mod f = a mod f.
Proof. symmetry. apply Zmod_div_mod; [lia|unfold n; nia|exists m; unfold n; ring]. Qed.
Lemma mod_n_m a : (a mod n) mod m = a mod m.
Proof. symmetry. apply Zmod_div_mod; [lia|unfold n; nia|exists f; unfold n; ring]. Qed.
Lemma mm_f : mm mod f = 1. Proof. exact Hinv. Qed.
Lemma mm_m : mm mod m = 0. Proof. apply Z.mod_mul. lia. Qed.
Lemma pos_f q l : pos q l mod f = q mod f.
Proof.
  unfold pos. rewrite mod_n_f. pose proof (Z.div_mod mm f ltac:(lia)) as D. rewrite mm_f in D.
  replace (q * mm + l * (1 - mm)) with (q + ((q - l) * (mm / f)) * f) by nia. now rewrite Z.mod_add by lia.
Qed.
Lemma pos_m q l : pos q l mod m = l mod m.
Proof.
  unfold pos. rewrite mod_n_m. replace (q * mm + l * (1 - mm)) with (l + ((q - l) * mu0) * m) by (unfold mm; ring). now rewrite Z.mod_add by lia.
Qed.
Lemma crt_unique a b : 0 <= a < n -> 0 <= b < n -> a mod f = b mod f -> a mod m = b mod m -> a = b.
Proof.
  intros Ha Hb E1 E2. assert (D1 : (f | a - b)) by (apply Z.mod_divide; [lia|]; rewrite Zminus_mod, E1, Z.sub_diag; apply Z.mod_0_l; lia).
  assert (D2 : (m | a - b)) by (apply Z.mod_divide; [lia|]; rewrite Zminus_mod, E2, Z.sub_diag; apply Z.mod_0_l; lia).
  destruct D2 as [t D2]. rewrite D2 in D1. rewrite Z.mul_comm in D1. apply Z.gauss in D1; [|apply coprime_fm]. destruct D1 as [u D1]. assert (a - b = u * n) by (unfold n; nia). assert (u = 0) by nia. nia.
Qed.

Definition placed (l : Z) (js : list Z) : Prop := length js = Z.to_nat f /\ forall k, 0 <= k < f -> nth (Z.to_nat k) js 0 = pos k l.
Lemma cells_nth k : forall j i, 0 <= j < n -> (i < k)%nat -> nth i (cells k j mm n) 0 = (j + Z.of_nat i * mm) mod n.
Proof.
  assert (Hmm : 0 <= mm < n) by (unfold mm, n; nia).
  induction k as [|k IH]; intros j i Hj Hi; [lia|]. cbn [cells]. destruct i as [|i]; cbn [nth]; [rewrite Z.mul_0_l, Z.add_0_r; symmetry; apply Z.mod_small; lia|].
  rewrite IH by (try lia; destruct (Z.leb_spec n (j + mm)); lia). destruct (Z.leb_spec n (j + mm)).
  - replace (j + mm - n + Z.of_nat i * mm) with (j + Z.of_nat (S i) * mm + (-1) * n) by lia. now rewrite Z.mod_add by lia.
  - f_equal. lia.
Qed.
Lemma cells_length k : forall j, length (cells k j mm n) = k.
Proof. induction k as [|k IH]; intros j; [reflexivity|]. cbn [cells length]. now rewrite IH. Qed.
Lemma cells_placed : placed 0 (cells (Z.to_nat f) 0 mm n).
Proof.
  split; [apply cells_length|]. intros k Hk. rewrite cells_nth by (unfold n; nia). unfold pos. f_equal. rewrite Z2Nat.id by lia. ring.
Qed.
Lemma nth_removelast {T} (l : list T) k d : (k < length l - 1)%nat -> nth k (removelast l) d = nth k l d.
Proof.
  revert k. induction l as [|a l IH]; intros k H; [cbn in H; lia|]. destruct l as [|b l]; [cbn in H; lia|]. cbn [removelast]. destruct k as [|k]; [reflexivity|]. cbn [nth]. apply IH. cbn in *. lia.
Qed.
Lemma last_nth {T} (l : list T) d : last l d = nth (length l - 1) l d.
Proof. induction l as [|a l IH]; [reflexivity|]. destruct l as [|b l]; [reflexivity|]. change (last (a :: b :: l) d) with (last (b :: l) d). rewrite IH. cbn [length]. now rewrite Nat.sub_succ, Nat.sub_0_r. Qed.
Lemma step_pos q l : 0 <= l -> l + 1 < m -> pos q l + 1 = pos (q + 1) (l + 1).
Proof.
  intros Hl Hl'. pose proof (pos_range q l) as R.
  assert (pos q l + 1 < n).
  { pose proof (pos_m q l) as E. rewrite (Z.mod_small l) in E by lia. destruct (Z.eq_dec (pos q l) (n - 1)) as [E'|]; [|lia]. rewrite E' in E. replace (n - 1) with (m - 1 + (f - 1) * m) in E by (unfold n; ring). rewrite Z.mod_add, Z.mod_small in E by lia. lia. }
  apply crt_unique; [lia|apply pos_range| |].
  - rewrite <- Z.add_mod_idemp_l, pos_f, Z.add_mod_idemp_l, pos_f by lia. reflexivity.
  - rewrite <- Z.add_mod_idemp_l, pos_m, Z.add_mod_idemp_l, pos_m by lia. reflexivity.
Qed.
Lemma pos_mod q l : pos (q mod f) l = pos q l.
Proof. apply crt_unique; try apply pos_range; [rewrite !pos_f; apply Z.mod_mod; lia|now rewrite !pos_m]. Qed.
Lemma rotate_placed l js : 0 <= l -> l + 1 < m -> placed l js -> placed (l + 1) (rotate js).
Proof.
  intros Hl Hl' [P1 P2]. unfold rotate. split.
  - cbn [length]. rewrite map_length. destruct js as [|a js'] using rev_ind; [cbn in P1; lia|]. rewrite removelast_last. rewrite app_length in P1. cbn in P1. lia.
  - intros k Hk. destruct (Z.eq_dec k 0) as [-> |N].
    + change (Z.to_nat 0) with 0%nat. cbn [nth]. rewrite last_nth, P1. replace (Z.to_nat f - 1)%nat with (Z.to_nat (f - 1)) by lia. rewrite P2 by lia. rewrite step_pos by lia. rewrite <- pos_mod. f_equal. replace (f - 1 + 1) with f by ring. apply Z.mod_same. lia.
    + replace (Z.to_nat k) with (S (Z.to_nat (k - 1))) by lia. cbn [nth]. rewrite (nth_indep _ 0 (0 + 1)).
      2:{ rewrite map_length. destruct js as [|a js'] using rev_ind; [cbn in P1; lia|]. rewrite removelast_last. rewrite app_length in P1. cbn in P1. lia. }
      rewrite (map_nth (fun j => j + 1)), nth_removelast by lia. rewrite P2 by lia. rewrite step_pos by lia. f_equal. ring.
Qed.
Lemma placed_NoDup l js : placed l js -> NoDup js.
Proof.
  intros [P1 P2]. apply (NoDup_nth js 0). intros i j Hi Hj E. rewrite P1 in Hi, Hj.
  assert (P2' := P2 (Z.of_nat j) ltac:(lia)). specialize (P2 (Z.of_nat i) ltac:(lia)). rewrite Nat2Z.id in P2, P2'. rewrite P2, P2' in E. apply (f_equal (fun a => a mod f)) in E. rewrite !pos_f, !Z.mod_small in E by lia. lia.
Qed.
Lemma placed_in l js j : placed l js -> In j js -> 0 <= j < n /\ j mod m = l mod m.
Proof.
  intros [P1 P2] H. apply (In_nth _ _ 0) in H as (i & Hi & <-). rewrite P1 in Hi. specialize (P2 (Z.of_nat i) ltac:(lia)). rewrite Nat2Z.id in P2. rewrite P2. split; [apply pos_range|apply pos_m].
Qed.

Variable mu : Z.
Hypothesis Hmu' : 0 < mu < f.
Hypothesis Hg : Z.gcd mu f = 1.
(** the values after the pass *)
Definition passed (z : Z -> C) (i : Z) : C := total (Z.to_nat f) (fun q => cmul (z (pos q (i mod m))) (root f 1 (mu * (q * (i mod f))))).
Lemma range_fold z : forall j, 0 <= j -> j <= m ->
  let s := fold_left (fun s _ => pass_step f mu s) (range 0 j) (z, cells (Z.to_nat f) 0 mm n) in
  (j < m -> placed j (snd s)) /\ (forall i, 0 <= i < n -> fst s i = if i mod m <? j then passed z i else z i) /\ (forall i, ~ 0 <= i < n -> fst s i = z i).
Proof.
  refine (natlike_ind _ _ _).
  - intros _. rewrite range_nil by lia. cbn [fold_left fst snd]. split; [intros _; apply cells_placed|]. split; [|reflexivity]. intros i Hi. destruct (Z.ltb_spec (i mod m) 0); [|reflexivity]. pose proof (Z.mod_pos_bound i m). lia.
  - intros j Hj IH Hjm. destruct (IH ltac:(lia)) as (I1 & I2 & I3). clear IH. unfold Z.succ in *. rewrite range_snoc by lia. rewrite fold_left_app. cbn [fold_left].
    set (s := fold_left _ _ _) in *. clearbody s. destruct s as [mem js]. unfold pass_step. cbn [fst snd] in *. specialize (I1 ltac:(lia)).
    assert (P := I1). destruct P as [P1 P2]. pose proof (placed_NoDup _ _ I1) as ND.
    assert (V : module f mu (fun q => mem (nth (Z.to_nat q) js 0)) = map (fun k => total (Z.to_nat f) (fun q => cmul (z (pos q j)) (root f 1 (mu * (q * k))))) (range 0 f)).
    { rewrite module_ok by assumption. unfold rotated. apply map_ext. intros k. apply total_ext. intros q Hq. rewrite P2 by lia. rewrite I2 by apply pos_range. rewrite pos_m, (Z.mod_small j) by lia. now rewrite Z.ltb_irrefl. }
    split; [intros H; apply rotate_placed; [lia|lia|exact I1]|]. split.
    + intros i Hi. destruct (Z.eq_dec (i mod m) j) as [E|E].
      * destruct (Z.ltb_spec (i mod m) (j + 1)); [|lia].
        assert (Ei : i = nth (Z.to_nat (i mod f)) js 0).
        { pose proof (Z.mod_pos_bound i f ltac:(lia)). rewrite P2 by lia. apply crt_unique; [lia|apply pos_range| |]; [rewrite pos_f; symmetry; apply Z.mod_mod; lia|rewrite pos_m, (Z.mod_small j) by lia; exact E]. }
        pose proof (Z.mod_pos_bound i f ltac:(lia)). rewrite Ei at 1. rewrite store_hit; [|exact ND|rewrite V, map_length, range_length, P1; lia|rewrite P1; lia]. rewrite V.
        rewrite (nth_indep _ c0 ((fun k => total (Z.to_nat f) (fun q => cmul (z (pos q j)) (root f 1 (mu * (q * k))))) 0)) by (rewrite map_length, range_length; lia).
        rewrite (map_nth (fun k => total (Z.to_nat f) (fun q => cmul (z (pos q j)) (root f 1 (mu * (q * k)))))). unfold passed. rewrite E. apply total_ext. intros q Hq. do 4 f_equal. rewrite range_nth; lia.
      * rewrite store_miss; [|intros Hi'; apply (placed_in _ _ _ I1) in Hi'; rewrite (Z.mod_small j) in Hi' by lia; lia]. rewrite I2 by exact Hi. destruct (Z.ltb_spec (i mod m) j), (Z.ltb_spec (i mod m) (j + 1)); try reflexivity; lia.
    + intros i Hi. rewrite store_miss; [now apply I3|]. intros Hi'. apply (placed_in _ _ _ I1) in Hi'. tauto.
Qed.
End Pass.
Lemma gcd_inverse f m u : 1 < f -> (u * m) mod f = 1 -> Z.gcd u f = 1.
Proof.
  intros Hf H. apply Zgcd_1_rel_prime. apply bezout_rel_prime. pose proof (Z.div_mod (u * m) f ltac:(lia)) as D. rewrite H in D. apply (Bezout_intro u f 1 m (- (u * m / f))). nia.
Qed.
Lemma pass_ok s f m z : s = 1 \/ s = -1 -> In f kfax -> 0 < m -> Z.gcd f m = 1 ->
  exists mu0, 0 < mu0 < f /\ (mu0 * m) mod f = 1 /\
  (forall i, 0 <= i < f * m -> pass s (f * m) f z i = total (Z.to_nat f) (fun q => cmul (z (pos f m mu0 q (i mod m))) (root f s (mu0 * (q * (i mod f)))))) /\
  (forall i, ~ 0 <= i < f * m -> pass s (f * m) f z i = z i).
Proof.
  intros Hs Hf Hm Hg.
  assert (Hf1 : 1 < f) by (unfold kfax in Hf; cbn [In] in Hf; lia).
  destruct (inverse_mod f m Hf1 Hg) as (j0 & J1 & J2). unfold pass. replace (f * m / f) with m by (rewrite Z.mul_comm, Z.div_mul; lia).
  destruct (find_mu_ok f m j0 (Z.to_nat f) 1 ltac:(lia) J2) as [F1 F2]. set (mu0 := find_mu (Z.to_nat f) 1 f m) in *. clearbody mu0. exists mu0.
  assert (Hmu : 0 < mu0 < f) by lia. split; [exact Hmu|]. split; [exact F2|].
  set (mu := if s <? 0 then f - mu0 else mu0).
  assert (M1 : 0 < mu < f) by (unfold mu; destruct (s <? 0); lia).
  assert (M2 : Z.gcd mu f = 1).
  { unfold mu. destruct (s <? 0); [|now apply (gcd_inverse f m)]. apply (gcd_inverse f (- m)); [exact Hf1|]. replace ((f - mu0) * - m) with (mu0 * m + (- m) * f) by ring. now rewrite Z.mod_add by lia. }
  assert (R : forall e, root f 1 (mu * e) = root f s (mu0 * e)).
  { intros e. unfold mu. destruct Hs as [-> | ->]; [reflexivity|]. cbn [Z.ltb Z.compare]. change (-1) with (- (1)). rewrite root_sign. apply root_refl; [lia|]. replace ((f - mu0) * e + mu0 * e) with (e * f) by ring. apply Z.mod_mul. lia. }
  destruct (range_fold f m mu0 Hf Hm Hmu F2 mu M1 M2 z m ltac:(lia) ltac:(lia)) as (_ & K1 & K2). split.
  - intros i Hi. rewrite K1 by exact Hi. destruct (Z.ltb_spec (i mod m) m); [|pose proof (Z.mod_pos_bound i m); lia]. unfold passed. apply total_ext. intros q _. now rewrite R.
  - exact K2.
Qed.

(** ** all passes *)
Lemma mod_congr a b n : 0 < n -> (a - b) mod n = 0 <-> a mod n = b mod n.
Proof.
  intros Hn. split; intros H.
  - replace a with (b + (a - b)) by ring. rewrite Z.add_mod, H, Z.add_0_r by lia. apply Z.mod_mod. lia.
  - rewrite Zminus_mod, H, Z.sub_diag. apply Z.mod_0_l. lia.
Qed.
Lemma mod_divisor a b n d : 0 < n -> (d | n) -> 0 < d -> a mod n = b mod n -> a mod d = b mod d.
Proof.
  intros Hn [q E] Hd H. rewrite (Zmod_div_mod d n a), (Zmod_div_mod d n b) by (lia || (exists q; exact E)). now rewrite H.
Qed.
Section All.
Variables s n : Z.
Hypothesis Hs : s = 1 \/ s = -1.
Hypothesis Hn : 0 < n.
Variable x : Z -> C.
(** the sums over the residue class of i modulo r *)
Definition class_sum (r e i : Z) : C := total (Z.to_nat n) (fun j => if (j - i) mod r =? 0 then cmul (x j) (root n s (e * (j * i))) else c0).
Lemma root_congr a b : a mod n = b mod n -> root n s a = root n s b.
Proof. intros H. rewrite <- (root_mod s Hs n a), <- (root_mod s Hs n b) by lia. now rewrite H. Qed.
Lemma class_sum_n i : 0 <= i < n -> class_sum n 0 i = x i.
Proof.
  intros Hi. unfold class_sum. rewrite (total_single _ _ i); [|lia|intros j Hj Hne; destruct (Z.eqb_spec ((j - i) mod n) 0) as [E|E]; [exfalso; apply (proj1 (mod_congr _ _ _ Hn)) in E; rewrite !Z.mod_small in E by lia; lia|reflexivity]].
  rewrite Z.sub_diag, Z.mod_0_l by lia. cbn [Z.eqb]. rewrite Z.mul_0_l, root_0. ring.
Qed.
Lemma class_sum_1 e i : e mod n = 1 mod n -> class_sum 1 e i = dft n s x i.
Proof.
  intros He. unfold class_sum, dft. apply total_ext. intros j Hj. rewrite Z.mod_1_r. cbn [Z.eqb]. rewrite times_cmul. f_equal. apply root_congr. rewrite <- Z.mul_mod_idemp_l, He, Z.mul_mod_idemp_l, Z.mul_1_l by lia. reflexivity.
Qed.
(** one more factor *)
Lemma class_step f m r e mu0 z z' : n = f * m -> 1 < f -> 0 < m -> 0 < r -> 0 < mu0 < f -> (mu0 * m) mod f = 1 -> (r | m) -> e mod (f * r) = 0 ->
  (forall i, 0 <= i < n -> z i = class_sum (f * r) e i) ->
  (forall i, 0 <= i < n -> z' i = total (Z.to_nat f) (fun q => cmul (z (pos f m mu0 q (i mod m))) (root f s (mu0 * (q * (i mod f)))))) ->
  forall i, 0 <= i < n -> z' i = class_sum r (e + mu0 * m) i.
Proof.
  intros En Hf Hm Hr Hmu Hinv Dr He Hz Hz' i Hi.
  assert (Hfr : 0 < f * r) by (apply Z.mul_pos_pos; lia).
  assert (Cp : Z.gcd f m = 1) by (apply (coprime_fm f m mu0); assumption).
  rewrite Hz' by exact Hi. unfold class_sum.
  rewrite (total_ext _ _ (fun q => total (Z.to_nat n) (fun j => if (j - pos f m mu0 q (i mod m)) mod (f * r) =? 0 then cmul (cmul (x j) (root n s (e * (j * pos f m mu0 q (i mod m))))) (root f s (mu0 * (q * (i mod f)))) else c0))).
  2:{ intros q Hq. rewrite Hz by (rewrite En; now apply pos_range). unfold class_sum. rewrite <- total_mul_r. apply total_ext. intros j Hj. destruct (_ =? 0); [reflexivity|ring]. }
  rewrite total_swap. apply total_ext. intros j Hj.
  assert (P : forall q, 0 <= q < f -> pos f m mu0 q (i mod m) mod f = q) by (intros q Hq; rewrite pos_f by (assumption || lia); apply Z.mod_small; lia).
  assert (P' : forall q, pos f m mu0 q (i mod m) mod m = i mod m) by (intros q; rewrite pos_m by (assumption || lia); apply Z.mod_mod; lia).
  pose proof (Z.mod_pos_bound j f ltac:(lia)) as Bj.
  rewrite (total_single _ _ (j mod f)).
  - set (j' := pos f m mu0 (j mod f) (i mod m)). assert (Q1 : j' mod f = j mod f) by (apply P; lia). assert (Q2 : j' mod m = i mod m) by apply P'.
    assert (T : (j - j') mod (f * r) = 0 <-> (j - i) mod r = 0).
    { split; intros H.
      - apply mod_congr; [lia|]. apply (proj1 (mod_congr _ _ (f * r) Hfr)) in H. transitivity (j' mod r); [apply (mod_divisor _ _ (f * r)); [exact Hfr|exists f; ring|lia|exact H]|apply (mod_divisor _ _ m); [lia|exact Dr|lia|exact Q2]].
      - apply (proj1 (mod_congr _ _ r Hr)) in H. assert (H2 : (r | j - j')).
        { apply Z.mod_divide; [lia|]. apply mod_congr; [lia|]. rewrite H. symmetry. apply (mod_divisor _ _ m); [lia|exact Dr|lia|exact Q2]. }
        assert (H1 : (f | j - j')) by (apply Z.mod_divide; [lia|]; apply mod_congr; [lia|now symmetry]).
        apply Z.mod_divide; [clear - Hfr; lia|]. destruct H2 as [t E2]. rewrite E2 in H1. rewrite Z.mul_comm in H1. apply Z.gauss in H1.
        + destruct H1 as [u E1]. exists u. rewrite E2, E1. ring.
        + destruct Dr as [g Dr]. apply Zgcd_1_rel_prime. apply Zgcd_1_rel_prime in Cp. rewrite Dr in Cp. rewrite Z.mul_comm in Cp. apply rel_prime_sym. apply (rel_prime_div (r * g) f r); [apply rel_prime_sym; exact Cp|exists g; ring]. }
    destruct (Z.eqb_spec ((j - j') mod (f * r)) 0) as [E|E], (Z.eqb_spec ((j - i) mod r) 0) as [E'|E']; try tauto.
    assert (X : root f s (mu0 * ((j mod f) * (i mod f))) = root n s (mu0 * m * (j * i))).
    { rewrite <- (root_scale s f m) by lia. replace (m * f) with n by lia. apply root_congr. rewrite En.
      replace (m * (mu0 * (j mod f * (i mod f)))) with (m * (mu0 * ((j mod f) * (i mod f)))) by ring. replace (mu0 * m * (j * i)) with (m * (mu0 * (j * i))) by ring.
      rewrite (Z.mul_comm f m). rewrite !Z.mul_mod_distr_l by lia. f_equal. rewrite <- (Z.mul_mod_idemp_r mu0 (j * i)), <- (Z.mul_mod_idemp_r mu0 (j mod f * (i mod f))) by lia. rewrite <- Z.mul_mod by lia. reflexivity. }
    rewrite X. assert (Y : root n s (e * (j * j')) = root n s (e * (j * i))).
    { apply root_congr. apply mod_congr; [lia|]. replace (e * (j * j') - e * (j * i)) with (e * (j' - i) * j) by ring. apply Z.mod_divide in He; [|clear - Hfr; lia]. destruct He as [g He]. destruct Dr as [d Dr].
      assert (D : (d * r | j' - i)) by (rewrite <- Dr; apply Z.mod_divide; [clear - Hm; lia|]; apply mod_congr; [exact Hm|exact Q2]). destruct D as [t D]. apply Z.mod_divide; [lia|]. exists (g * t * r * j). rewrite He, D, En, Dr. ring. }
    rewrite Y, Z.mul_add_distr_r, root_add by exact Hs. ring.
  - rewrite Z2Nat.id; lia.
  - intros q Hq Hne. destruct (Z.eqb_spec ((j - pos f m mu0 q (i mod m)) mod (f * r)) 0) as [E|E]; [|reflexivity]. exfalso. apply Hne. apply (proj1 (mod_congr _ _ (f * r) Hfr)) in E. apply (mod_divisor _ _ _ f) in E; [|exact Hfr|exists r; ring|clear - Hf; lia]. rewrite P in E by lia. lia.
Qed.
End All.

(** ** the loop over the factors *)
(** every factor divided out is prime to the rest of n and nothing is left *)
Fixpoint divided (n : Z) (ks : list Z) (r : Z) : bool :=
  match ks with
  | [] => r =? 1
  | f :: ks => if r mod f =? 0 then andb (Z.gcd f (n / f) =? 1) (divided n ks (r / f)) else divided n ks r
  end.
Lemma coprime_product a b x y : 0 < a -> 0 < b -> Z.gcd a b = 1 -> x mod a = y mod a -> x mod b = y mod b -> x mod (a * b) = y mod (a * b).
Proof.
  intros Ha Hb G E1 E2. apply mod_congr; [nia|]. apply Z.mod_divide; [nia|]. apply (proj2 (mod_congr x y a Ha)) in E1. apply (proj2 (mod_congr x y b Hb)) in E2.
  apply Z.mod_divide in E1; [|lia]. apply Z.mod_divide in E2; [|lia]. destruct E2 as [t E2]. rewrite E2, Z.mul_comm in E1. apply Z.gauss in E1; [|exact G]. destruct E1 as [u E1]. exists u. rewrite E2, E1. ring.
Qed.
Lemma loop_ok s n x ks : s = 1 \/ s = -1 -> forall r d e z, (forall f, In f ks -> In f kfax) -> 0 < r -> 0 < d -> n = d * r -> e mod r = 0 -> e mod d = 1 mod d ->
  (forall i, 0 <= i < n -> z i = class_sum s n x r e i) -> divided n ks r = true ->
  (forall i, 0 <= i < n -> pfa_loop s n ks r z i = dft n s x i) /\ (forall i, ~ 0 <= i < n -> pfa_loop s n ks r z i = z i).
Proof.
  intros Hs. induction ks as [|f ks IH]; intros r d e z Hk Hr Hd En He He' Hz D; cbn [pfa_loop divided] in *.
  - apply Z.eqb_eq in D. subst r. rewrite Z.mul_1_r in En. subst d. split; [|reflexivity]. intros i Hi. rewrite Hz by exact Hi. apply class_sum_1; [exact Hs|lia|exact He'].
  - assert (Kf : In f kfax) by (apply Hk; now left). assert (Hf : 1 < f) by (unfold kfax in Kf; cbn [In] in Kf; lia).
    rewrite Z.quot_div_nonneg by lia.
    destruct (Z.eqb_spec (r / f * f) r) as [E|E]; cbn [negb].
    + assert (E0 : r mod f = 0) by (rewrite <- E; apply Z.mod_mul; lia). rewrite E0 in D. cbn [Z.eqb] in D. apply andb_prop in D as [D1 D2]. apply Z.eqb_eq in D1.
      set (r' := r / f) in *. assert (Er : r = f * r') by lia. assert (Hr' : 0 < r') by nia.
      assert (Em : n / f = d * r') by (rewrite En, Er; replace (d * (f * r')) with (d * r' * f) by ring; apply Z.div_mul; lia). rewrite Em in D1.
      assert (Hm : 0 < d * r') by (apply Z.mul_pos_pos; lia). assert (En' : n = f * (d * r')) by (rewrite En, Er; ring).
      destruct (pass_ok s f (d * r') z Hs Kf Hm D1) as (mu0 & M1 & M2 & K1 & K2). rewrite <- En' in K1, K2.
      assert (Dd : Z.gcd f d = 1).
      { apply Zgcd_1_rel_prime. apply Zgcd_1_rel_prime in D1. apply rel_prime_sym. apply (rel_prime_div (d * r') f d); [now apply rel_prime_sym|exists r'; ring]. }
      destruct (IH r' (f * d) (e + mu0 * (d * r')) (pass s n f z)) as [I1 I2].
      * intros f' Hf'. apply Hk. now right.
      * exact Hr'.
      * apply Z.mul_pos_pos; lia.
      * lia.
      * replace (mu0 * (d * r')) with (mu0 * d * r') by ring. rewrite Z.mod_add by lia. apply Z.mod_divide; [lia|]. apply Z.mod_divide in He; [|lia]. destruct He as [g He]. exists (g * f). rewrite He, Er. ring.
      * apply coprime_product; [lia|lia|exact Dd| |].
        -- rewrite Z.add_mod, M2 by lia. apply Z.mod_divide in He; [|lia]. destruct He as [g He]. rewrite He, Er. replace (g * (f * r')) with (g * r' * f) by ring. rewrite Z.mod_mul by lia. reflexivity.
        -- replace (mu0 * (d * r')) with (mu0 * r' * d) by ring. rewrite Z.mod_add by lia. exact He'.
      * apply (class_step s n Hs ltac:(lia) x f (d * r') r' e mu0 z); try assumption; try lia; [exists d; ring|rewrite <- Er; exact He|intros i Hi; rewrite Hz by exact Hi; now rewrite Er].
      * exact D2.
      * split; [exact I1|]. intros i Hi. rewrite I2 by exact Hi. now apply K2.
    + destruct (Z.eqb_spec (r mod f) 0) as [E0|E0]; [exfalso; apply E; pose proof (Z.div_mod r f ltac:(lia)); lia|]. apply (IH r d e z); try assumption. intros f' Hf'. apply Hk. now right.
Qed.
Lemma pfacc_ok s n x : s = 1 \/ s = -1 -> 0 < n -> divided n kfax n = true ->
  (forall i, 0 <= i < n -> pfacc s n x i = dft n s x i) /\ (forall i, ~ 0 <= i < n -> pfacc s n x i = x i).
Proof.
  intros Hs Hn D. apply (loop_ok s n x kfax Hs n 1 0 x); try lia; [auto|reflexivity| |exact D]. intros i Hi. symmetry. apply class_sum_n; assumption.
Qed.
