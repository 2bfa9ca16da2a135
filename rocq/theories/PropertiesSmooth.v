(** Properties of smooth, extendModel and truncate (C94, C95). *)
From Coq Require Import ZArith Reals List Bool Lia Lra FunctionalExtensionality.
From Verif Require Import ListAux FdKernels FdProofs FdOutputProofs Marchenko FftAux FconvSpec FconvProofs PropertiesDft CorrvirSpec PropertiesCorrvir2 SmoothSpec Smooth.
Import ListNotations.
Local Open Scope Z_scope.

(** ** auxiliary: loops *)
Lemma upd_id {V} (d : Z -> V) a : upd d a (d a) = d.
Proof. apply functional_extensionality. intros x. rewrite upd_eq. destruct (Z.eqb_spec x a); congruence. Qed.
Lemma upd_upd {V} (d : Z -> V) a u v : upd (upd d a u) a v = upd d a v.
Proof. apply functional_extensionality. intros x. rewrite !upd_eq. destruct (x =? a); reflexivity. Qed.
Lemma upd_at {V} (d : Z -> V) a v : upd d a v a = v. Proof. rewrite upd_eq, Z.eqb_refl. reflexivity. Qed.
Lemma all_ext {S} nrec nsam (f g : S -> Z -> Z -> S) s : (forall s ix it, 0 <= ix < nrec -> 0 <= it < nsam -> f s ix it = g s ix it) -> all_samples nrec nsam f s = all_samples nrec nsam g s.
Proof. intros H. unfold all_samples. apply PropertiesDft.fold_left_ext. intros a b Hb. apply in_range in Hb. apply PropertiesDft.fold_left_ext. intros c e He. apply in_range in He. apply H; lia. Qed.
Lemma all_own {V} (h : Z -> Z -> V -> V) nrec nsam (o : Z -> V) : 0 <= nrec -> let q := all_samples nrec nsam (fun o ix it => upd o (ix * nsam + it) (h ix it (o (ix * nsam + it)))) o in
  (forall i k, 0 <= i < nrec -> 0 <= k < nsam -> q (i * nsam + k) = h i k (o (i * nsam + k))) /\ (forall x, ~ 0 <= x < nrec * nsam -> q x = o x).
Proof. intros H q. apply (own_rows h nsam nrec o H). Qed.
Lemma all_pair (f g : R -> R -> R) nrec nsam (d t : Z -> R) : 0 <= nrec ->
  let q := all_samples nrec nsam (fun '(d, t) ix it => (upd d (ix * nsam + it) (f (d (ix * nsam + it)) (t (ix * nsam + it))), upd t (ix * nsam + it) (g (d (ix * nsam + it)) (t (ix * nsam + it))))) (d, t) in
  (forall i k, 0 <= i < nrec -> 0 <= k < nsam -> fst q (i * nsam + k) = f (d (i * nsam + k)) (t (i * nsam + k)) /\ snd q (i * nsam + k) = g (d (i * nsam + k)) (t (i * nsam + k))) /\
  (forall x, ~ 0 <= x < nrec * nsam -> fst q x = d x).
Proof.
  intros H q. set (zip := fun (p : (Z -> R) * (Z -> R)) (x : Z) => (fst p x, snd p x)).
  set (body := fun '((d, t) : (Z -> R) * (Z -> R)) (ix it : Z) => (upd d (ix * nsam + it) (f (d (ix * nsam + it)) (t (ix * nsam + it))), upd t (ix * nsam + it) (g (d (ix * nsam + it)) (t (ix * nsam + it))))).
  set (h := fun (ix it : Z) (v : R * R) => (f (fst v) (snd v), g (fst v) (snd v))).
  assert (B : forall p ix it, zip (body p ix it) = upd (zip p) (ix * nsam + it) (h ix it (zip p (ix * nsam + it)))).
  { intros [d0 t0] ix it. apply functional_extensionality. intros x. unfold zip, body, h. cbn [fst snd]. rewrite !upd_eq. destruct (x =? ix * nsam + it); reflexivity. }
  assert (B2 : forall l ix p, zip (fold_left (fun s it => body s ix it) l p) = fold_left (fun o it => upd o (ix * nsam + it) (h ix it (o (ix * nsam + it)))) l (zip p)).
  { induction l as [|it l IH]; intros ix p; [reflexivity|]. cbn [fold_left]. rewrite IH, B. reflexivity. }
  assert (B3 : forall l p, zip (fold_left (fun s ix => fold_left (fun s it => body s ix it) (range 0 nsam) s) l p) = fold_left (fun o ix => fold_left (fun o it => upd o (ix * nsam + it) (h ix it (o (ix * nsam + it)))) (range 0 nsam) o) l (zip p)).
  { induction l as [|ix l IH]; intros p; [reflexivity|]. cbn [fold_left]. rewrite IH, B2. reflexivity. }
  assert (Q : zip q = fold_left (fun o ix => fold_left (fun o it => upd o (ix * nsam + it) (h ix it (o (ix * nsam + it)))) (range 0 nsam) o) (range 0 nrec) (zip (d, t))) by (unfold q; apply (B3 (range 0 nrec) (d, t))).
  destruct (own_rows h nsam nrec (zip (d, t)) H) as [K1 K2]. rewrite <- Q in K1, K2. split.
  - intros i k Hi Hk. specialize (K1 i k Hi Hk). unfold zip, h in K1. cbn [fst snd] in K1. apply pair_equal_spec in K1. exact K1.
  - intros x Hx. specialize (K2 x Hx). unfold zip in K2. apply (f_equal fst) in K2. exact K2.
Qed.
(** ** auxiliary: the window *)
Lemma inner_loop (din : Z -> R) base a l : forall ic t, fold_left (fun '(ic, t) itt => (ic + 1, upd t a (t a + din (base + itt)%Z)%R)) l (ic, t) = (ic + Z.of_nat (length l), upd t a (t a + list_sum (fun i => din (base + i)%Z) l)%R).
Proof.
  induction l as [|i l IH]; intros ic t; cbn [fold_left].
  - cbn. rewrite Rplus_0_r, upd_id, Z.add_0_r. reflexivity.
  - rewrite IH, upd_upd, upd_at. unfold list_sum. cbn [fold_right length]. f_equal; [lia|]. f_equal. ring.
Qed.
Lemma outer_loop (din : Z -> R) nsam a lt lx : forall ic t, fold_left (fun st ixx => fold_left (fun '(ic, t) itt => (ic + 1, upd t a (t a + din (ixx * nsam + itt)%Z)%R)) lt st) lx (ic, t) =
  (ic + Z.of_nat (length lx) * Z.of_nat (length lt), upd t a (t a + list_sum (fun x => list_sum (fun i => din (x * nsam + i)%Z) lt) lx)%R).
Proof.
  induction lx as [|x lx IH]; intros ic t; cbn [fold_left].
  - cbn. rewrite Rplus_0_r, upd_id, Z.add_0_r. reflexivity.
  - rewrite (inner_loop din (x * nsam) a lt), IH, upd_upd, upd_at. f_equal; [cbn [length]; lia|]. f_equal. set (S := list_sum (fun i => din (x * nsam + i)%Z) lt). change (list_sum (fun x0 => list_sum (fun i => din (x0 * nsam + i)%Z) lt) (x :: lx)) with (S + list_sum (fun x0 => list_sum (fun i => din (x0 * nsam + i)%Z) lt) lx)%R. ring.
Qed.
Lemma list_sum_app {A} (f : A -> R) l m : list_sum f (l ++ m) = (list_sum f l + list_sum f m)%R.
Proof. unfold list_sum. induction l as [|h l IH]; cbn [app fold_right]; [ring|]. rewrite IH. ring. Qed.
Lemma list_sum_range (f : Z -> R) a b n : 0 <= a -> b <= n -> list_sum f (range a b) = Sum n (fun i => if (a <=? i) && (i <? b) then f i else 0%R).
Proof.
  intros Ha. destruct (Z.le_gt_cases b a) as [L|L].
  - intros _. rewrite range_nil by lia. symmetry. apply Sum_zero. intros i Hi. destruct (Z.leb_spec a i), (Z.ltb_spec i b); cbn [andb]; try reflexivity; lia.
  - replace b with (a + Z.of_nat (Z.to_nat (b - a))) by lia. generalize (Z.to_nat (b - a)). clear L b. induction n0 as [|k IH]; intros Hb.
    + rewrite range_nil by lia. symmetry. apply Sum_zero. intros i Hi. destruct (Z.leb_spec a i), (Z.ltb_spec i (a + Z.of_nat 0)); cbn [andb]; try reflexivity; lia.
    + replace (a + Z.of_nat (S k)) with (a + Z.of_nat k + 1) by lia. rewrite range_snoc by lia. rewrite list_sum_app, IH by lia.
      transitivity (Sum n (fun i => (if (a <=? i) && (i <? a + Z.of_nat k) then f i else 0) + (if i =? a + Z.of_nat k then f i else 0))%R).
      * rewrite Sum_add. f_equal. rewrite (Sum_single n _ (a + Z.of_nat k)); [rewrite Z.eqb_refl; unfold list_sum; cbn; ring|lia|]. intros i Hi N. destruct (Z.eqb_spec i (a + Z.of_nat k)); [lia|reflexivity].
      * apply Sum_ext. intros i Hi. destruct (Z.leb_spec a i), (Z.ltb_spec i (a + Z.of_nat k)), (Z.ltb_spec i (a + Z.of_nat k + 1)), (Z.eqb_spec i (a + Z.of_nat k)); cbn [andb]; try ring; lia.
Qed.
Lemma list_sum_ones {A B} (lx : list A) (lt : list B) : list_sum (fun _ => list_sum (fun _ => 1%R) lt) lx = IZR (Z.of_nat (length lx) * Z.of_nat (length lt)).
Proof.
  assert (L1 : forall (T : Type) (l : list T) c, list_sum (fun _ => c) l = (IZR (Z.of_nat (length l)) * c)%R).
  { intros T l c. unfold list_sum. induction l as [|h l IH]; cbn [fold_right length]; [cbn; ring|]. rewrite IH. rewrite Nat2Z.inj_succ, succ_IZR. ring. }
  rewrite !L1, mult_IZR. ring.
Qed.
Lemma half_odd n : 0 <= n -> Z.quot (make_odd n) 2 = n / 2 /\ Z.quot (make_odd n - 1) 2 = n / 2.
Proof.
  intros H. unfold make_odd. rewrite (Z.quot_div_nonneg n) by lia. pose proof (Z.div_mod n 2 ltac:(lia)) as D. pose proof (Z.mod_pos_bound n 2 ltac:(lia)) as M.
  destruct (Z.eqb_spec (n / 2 * 2) n); rewrite !Z.quot_div_nonneg by lia; split; symmetry; [apply (Z.div_unique _ _ _ 1)|apply (Z.div_unique _ _ _ 0)|reflexivity|apply (Z.div_unique _ _ _ 0)]; lia.
Qed.
Lemma window_range h ix n i : 0 <= h -> 0 <= i < n -> (Z.max 0 (ix - h) <=? i) && (i <? Z.min (ix + h) (n - 1) + 1) = near h ix i.
Proof. intros Hh Hi. unfold near. destruct (Z.leb_spec (Z.max 0 (ix - h)) i), (Z.ltb_spec i (Z.min (ix + h) (n - 1) + 1)), (Z.leb_spec (Z.abs (ix - i)) h); cbn [andb]; try reflexivity; lia. Qed.
Lemma window_lists (d : Z -> Z -> R) nrec nsam hx ht ix it : 0 <= hx -> 0 <= ht ->
  list_sum (fun x => list_sum (d x) (range (Z.max 0 (it - ht)) (Z.min (it + ht) (nsam - 1) + 1))) (range (Z.max 0 (ix - hx)) (Z.min (ix + hx) (nrec - 1) + 1)) = window_sum nrec nsam hx ht d ix it.
Proof.
  intros Hx Ht. rewrite (list_sum_range _ _ _ nrec) by lia. unfold window_sum. apply Sum_ext. intros x Hx'. rewrite window_range by assumption.
  destruct (near hx ix x); cbn [andb]; [|symmetry; apply Sum_zero; reflexivity]. rewrite (list_sum_range _ _ _ nsam) by lia. apply Sum_ext. intros t Ht'. rewrite window_range by assumption. reflexivity.
Qed.
Lemma smooth_one_ok nrec nsam nt0 nx0 din dtmp ix it : 0 <= nt0 -> 0 <= nx0 -> smooth_one nrec nsam (make_odd nt0) (make_odd nx0) din dtmp ix it =
  upd dtmp (ix * nsam + it) ((dtmp (ix * nsam + it)%Z + window_sum nrec nsam (nx0 / 2) (nt0 / 2) (fun x t => din (x * nsam + t)%Z) ix it) / window_sum nrec nsam (nx0 / 2) (nt0 / 2) (fun _ _ => 1) ix it)%R.
Proof.
  intros Ht Hx. unfold smooth_one. cbv zeta. destruct (half_odd nx0 Hx) as [-> ->]. destruct (half_odd nt0 Ht) as [-> ->]. rewrite outer_loop, upd_upd, upd_at. f_equal. f_equal.
  - f_equal. apply (window_lists (fun x t => din (x * nsam + t)%Z)); apply Z.div_pos; lia.
  - rewrite <- (window_lists (fun _ _ => 1%R)) by (apply Z.div_pos; lia). rewrite list_sum_ones, Z.add_0_l. reflexivity.
Qed.
Lemma window_sum_ext nrec nsam hx ht d e x t : (forall i k, 0 <= i < nrec -> 0 <= k < nsam -> d i k = e i k) -> window_sum nrec nsam hx ht d x t = window_sum nrec nsam hx ht e x t.
Proof. intros H. unfold window_sum. apply Sum_ext. intros i Hi. apply Sum_ext. intros k Hk. rewrite H by assumption. reflexivity. Qed.
Lemma smooth_iter_ok nrec nsam nt0 nx0 d t : 0 <= nt0 -> 0 <= nx0 -> 0 <= nrec -> (forall i k, 0 <= i < nrec -> 0 <= k < nsam -> t (i * nsam + k) = 0%R) ->
  let q := smooth_iter nrec nsam (make_odd nt0) (make_odd nx0) (d, t) in
  (forall i k, 0 <= i < nrec -> 0 <= k < nsam -> fst q (i * nsam + k) = window_mean nrec nsam (nx0 / 2) (nt0 / 2) (fun x t => d (x * nsam + t)) i k /\ snd q (i * nsam + k) = 0%R) /\ (forall x, ~ 0 <= x < nrec * nsam -> fst q x = d x).
Proof.
  intros Ht Hx Hr T q. unfold q, smooth_iter. set (t1 := all_samples nrec nsam _ t).
  assert (E : t1 = all_samples nrec nsam (fun o ix it => upd o (ix * nsam + it) ((fun ix it v => (v + window_sum nrec nsam (nx0 / 2) (nt0 / 2) (fun x t => d (x * nsam + t)%Z) ix it) / window_sum nrec nsam (nx0 / 2) (nt0 / 2) (fun _ _ => 1) ix it)%R ix it (o (ix * nsam + it)))) t) by (apply all_ext; intros; apply smooth_one_ok; assumption).
  destruct (all_own (fun ix it v => (v + window_sum nrec nsam (nx0 / 2) (nt0 / 2) (fun x t => d (x * nsam + t)%Z) ix it) / window_sum nrec nsam (nx0 / 2) (nt0 / 2) (fun _ _ => 1) ix it)%R nrec nsam t Hr) as [K _]. rewrite <- E in K.
  destruct (all_pair (fun _ v => v) (fun _ _ => 0%R) nrec nsam d t1 Hr) as [P1 P2]. split; [|exact P2].
  intros i k Hi Hk. destruct (P1 i k Hi Hk) as [-> ->]. split; [|reflexivity]. rewrite K by assumption. cbv beta. rewrite T by assumption. rewrite Rplus_0_l. reflexivity.
Qed.
(** ** C94 *)
(** C94: niter times the mean over the window (ntsm/2 samples and nxsm/2 traces to each side, inside the gather) of the data to the given power, and the inverse power of the result; nothing else changes. *)
Theorem C94_smooth pw power nrec nsam nt0 nx0 niter din dtmp : 0 <= nt0 -> 0 <= nx0 -> 0 <= nrec ->
  let out := r_smooth pw power nrec nsam (make_odd nt0) (make_odd nx0) niter din dtmp in
  (forall i k, 0 <= i < nrec -> 0 <= k < nsam -> out (i * nsam + k) = to_power pw (if Req_EM_T power 1 then 1 else 1 / power) (Nat.iter niter (window_mean nrec nsam (nx0 / 2) (nt0 / 2)) (fun x t => to_power pw power (din (x * nsam + t))) i k)) /\
  (forall x, ~ 0 <= x < nrec * nsam -> out x = din x).
Proof.
  intros Ht Hx Hr out. unfold out, r_smooth. set (st := all_samples nrec nsam _ (din, dtmp)).
  assert (E : st = all_samples nrec nsam (fun '(d, t) ix it => (upd d (ix * nsam + it) ((fun v _ => to_power pw power v) (d (ix * nsam + it)) (t (ix * nsam + it))), upd t (ix * nsam + it) ((fun _ _ => 0%R) (d (ix * nsam + it)) (t (ix * nsam + it))))) (din, dtmp)).
  { apply all_ext. intros [d t] ix it _ _. cbv beta. f_equal. unfold to_power. destruct (Req_EM_T power 1); [now rewrite upd_id|]. destruct (Req_EM_T (d (ix * nsam + it)) 0); [|reflexivity]. destruct (Rlt_dec power 0); [now rewrite upd_id|reflexivity]. }
  destruct (all_pair (fun v _ => to_power pw power v) (fun _ _ => 0%R) nrec nsam din dtmp Hr) as [S1 S2]. rewrite <- E in S1, S2. clear E.
  assert (I : (forall i k, 0 <= i < nrec -> 0 <= k < nsam -> fst (Nat.iter niter (smooth_iter nrec nsam (make_odd nt0) (make_odd nx0)) st) (i * nsam + k) = Nat.iter niter (window_mean nrec nsam (nx0 / 2) (nt0 / 2)) (fun x t => to_power pw power (din (x * nsam + t))) i k /\ snd (Nat.iter niter (smooth_iter nrec nsam (make_odd nt0) (make_odd nx0)) st) (i * nsam + k) = 0%R) /\
    (forall x, ~ 0 <= x < nrec * nsam -> fst (Nat.iter niter (smooth_iter nrec nsam (make_odd nt0) (make_odd nx0)) st) x = din x)).
  { induction niter as [|m [I1 I2]]; [split; assumption|]. cbn [Nat.iter]. change (Nat.iter (S m) (smooth_iter nrec nsam (make_odd nt0) (make_odd nx0)) st) with (smooth_iter nrec nsam (make_odd nt0) (make_odd nx0) (Nat.iter m (smooth_iter nrec nsam (make_odd nt0) (make_odd nx0)) st)).
    destruct (Nat.iter m (smooth_iter nrec nsam (make_odd nt0) (make_odd nx0)) st) as [d t]. cbn [fst snd] in I1, I2. destruct (smooth_iter_ok nrec nsam nt0 nx0 d t Ht Hx Hr) as [Q1 Q2]; [intros; now apply I1|]. split.
    - intros i k Hi Hk. destruct (Q1 i k Hi Hk) as [-> ->]. split; [|reflexivity]. change (Nat.iter (S m) ?f ?a i k) with (f (Nat.iter m f a) i k). unfold window_mean at 1 2. f_equal. apply window_sum_ext. intros. now apply I1.
    - intros x Hx'. rewrite Q2 by exact Hx'. apply I2. exact Hx'. }
  destruct (Nat.iter niter (smooth_iter nrec nsam (make_odd nt0) (make_odd nx0)) st) as [d t]. cbn [fst snd] in I. destruct I as [I1 I2]. set (p := if Req_EM_T power 1 then 1%R else (1 / power)%R).
  rewrite (all_ext nrec nsam _ (fun d ix it => upd d (ix * nsam + it) ((fun _ _ v => to_power pw p v) ix it (d (ix * nsam + it))))).
  - destruct (all_own (fun _ _ v => to_power pw p v) nrec nsam d Hr) as [K1 K2]. split.
    + intros i k Hi Hk. rewrite K1 by assumption. cbv beta. f_equal. now apply I1.
    + intros x Hx'. rewrite K2 by exact Hx'. apply I2. exact Hx'.
  - intros s ix it _ _. cbv beta. unfold p, to_power. destruct (Req_EM_T power 1) as [P|P].
    + destruct (Req_EM_T 1 1); [now rewrite upd_id|lra].
    + destruct (Req_EM_T (1 / power) 1) as [P1|P1].
      * exfalso. apply P. destruct (Req_EM_T power 0) as [->|N0]; [unfold Rdiv in P1; rewrite Rinv_0 in P1; lra|]. assert (M : (1 / power * power)%R = 1%R) by (field; exact N0). rewrite P1 in M. lra.
      * destruct (Req_EM_T (s (ix * nsam + it)) 0); [|reflexivity]. destruct (Rlt_dec (1 / power) 0); [now rewrite upd_id|reflexivity].
Qed.
Print Assumptions C94_smooth.

Lemma Sum_le n f g : (forall i, 0 <= i < n -> (f i <= g i)%R) -> (Sum n f <= Sum n g)%R.
Proof.
  intros H. unfold Sum. assert (G : forall k, Z.of_nat k <= n -> (sum k f <= sum k g)%R).
  { induction k as [|k IH]; intros Hk; cbn [sum]; [lra|]. specialize (IH ltac:(lia)). specialize (H (Z.of_nat k) ltac:(lia)). lra. }
  destruct (Z.le_gt_cases n 0); [replace (Z.to_nat n) with 0%nat by lia; cbn; lra|]. apply G. lia.
Qed.
Lemma window_count nrec nsam hx ht x t : 0 <= hx -> 0 <= ht -> 0 <= x < nrec -> 0 <= t < nsam -> (1 <= window_sum nrec nsam hx ht (fun _ _ => 1) x t)%R.
Proof.
  intros Hx Ht Bx Bt. assert (E : Sum nrec (fun i => if i =? x then 1%R else 0%R) = 1%R).
  { rewrite (Sum_single nrec _ x); [now rewrite Z.eqb_refl|exact Bx|]. intros i Hi N. destruct (Z.eqb_spec i x); [lia|reflexivity]. }
  apply Rle_trans with (1 := Req_le _ _ (eq_sym E)). unfold window_sum. apply Sum_le. intros i Hi. destruct (Z.eqb_spec i x) as [->|N].
  - assert (E2 : Sum nsam (fun k => if k =? t then 1%R else 0%R) = 1%R).
    { rewrite (Sum_single nsam _ t); [now rewrite Z.eqb_refl|exact Bt|]. intros k Hk N. destruct (Z.eqb_spec k t); [lia|reflexivity]. }
    apply Rle_trans with (1 := Req_le _ _ (eq_sym E2)). apply Sum_le. intros k Hk. assert (near hx x x = true) as -> by (unfold near; apply Z.leb_le; lia). destruct (Z.eqb_spec k t) as [->|N].
    + assert (near ht t t = true) as -> by (unfold near; apply Z.leb_le; lia). cbn [andb]. lra.
    + destruct (true && near ht t k); lra.
  - apply Rle_trans with (1 := Req_le _ _ (eq_sym (Sum_zero nsam (fun _ => 0%R) (fun _ _ => eq_refl)))). apply Sum_le. intros k Hk. destruct (near hx x i && near ht t k); lra.
Qed.
Lemma window_bounds nrec nsam hx ht d lo hi x t : 0 <= hx -> 0 <= ht -> 0 <= x < nrec -> 0 <= t < nsam -> (forall i k, 0 <= i < nrec -> 0 <= k < nsam -> (lo <= d i k <= hi)%R) -> (lo <= window_mean nrec nsam hx ht d x t <= hi)%R.
Proof.
  intros Hx Ht Bx Bt H. pose proof (window_count nrec nsam hx ht x t Hx Ht Bx Bt) as C1. unfold window_mean. set (c := window_sum nrec nsam hx ht (fun _ _ => 1%R) x t) in *. set (s := window_sum nrec nsam hx ht d x t).
  assert (K : forall v, (v * c)%R = Sum nrec (fun x' => Sum nsam (fun t' => if near hx x x' && near ht t t' then v else 0%R))).
  { intros v. unfold c, window_sum. rewrite <- Sum_scale. apply Sum_ext. intros i Hi. rewrite <- Sum_scale. apply Sum_ext. intros k Hk. destruct (near hx x i && near ht t k); ring. }
  assert (L : (lo * c <= s)%R). { rewrite K. unfold s, window_sum. apply Sum_le. intros i Hi. apply Sum_le. intros k Hk. destruct (near hx x i && near ht t k); [apply H; assumption|lra]. }
  assert (U : (s <= hi * c)%R). { rewrite K. unfold s, window_sum. apply Sum_le. intros i Hi. apply Sum_le. intros k Hk. destruct (near hx x i && near ht t k); [apply H; assumption|lra]. }
  assert (s = (s / c) * c)%R as E by (field; lra). split; apply (Rmult_le_reg_r c); lra.
Qed.
(** C94: with power=1 smoothing stays between bounds of the data; a constant gather is not changed. *)
Theorem C94_bounds pw nrec nsam nt0 nx0 niter din dtmp lo hi : 0 <= nt0 -> 0 <= nx0 -> (forall i k, 0 <= i < nrec -> 0 <= k < nsam -> (lo <= din (i * nsam + k)%Z <= hi)%R) ->
  forall i k, 0 <= i < nrec -> 0 <= k < nsam -> (lo <= r_smooth pw 1 nrec nsam (make_odd nt0) (make_odd nx0) niter din dtmp (i * nsam + k)%Z <= hi)%R.
Proof.
  intros Ht Hx H i k Hi Hk. destruct (C94_smooth pw 1 nrec nsam nt0 nx0 niter din dtmp Ht Hx ltac:(lia)) as [-> _]; [|exact Hi|exact Hk]. destruct (Req_EM_T 1 1) as [_|]; [|lra].
  assert (P : forall v, to_power pw 1 v = v) by (intros v; unfold to_power; destruct (Req_EM_T 1 1); [reflexivity|lra]). rewrite P.
  clear dtmp. revert i k Hi Hk. induction niter as [|m IH]; intros i k Hi Hk.
  - cbn. rewrite P. now apply H.
  - change (Nat.iter (S m) ?f ?a i k) with (f (Nat.iter m f a) i k). apply window_bounds; try assumption; apply Z.div_pos; lia.
Qed.
Print Assumptions C94_bounds.
Example C94_nonvacuous : r_smooth (fun _ _ => 0%R) 1 1 3 (make_odd 3) (make_odd 0) 1 (fun a => IZR (a * a)) (fun _ => 7%R) 1 = (5 / 3)%R.
Proof.
  change 1 with (0 * 3 + 1) at 3. destruct (C94_smooth (fun _ _ => 0%R) 1 1 3 3 0 1 (fun a => IZR (a * a)) (fun _ => 7%R)) as [-> _]; try lia. destruct (Req_EM_T 1 1); [|lra].
  assert (P : forall v, to_power (fun _ _ => 0%R) 1 v = v) by (intros v; unfold to_power; destruct (Req_EM_T 1 1); [reflexivity|lra]). rewrite P. cbn [Nat.iter Nat.add]. change (Nat.iter 1 ?f ?a) with (f a). unfold window_mean, window_sum.
  assert (S3 : forall f, Sum 3 f = (f 0%Z + f 1%Z + f 2%Z)%R) by (intros f; unfold Sum; change (Z.to_nat 3) with 3%nat; cbn; ring). assert (S1 : forall f, Sum 1 f = f 0%Z) by (intros f; unfold Sum; change (Z.to_nat 1) with 1%nat; cbn; ring).
  rewrite !S1, !S3, !P. cbn. lra.
Qed.

(** ** C95: extendModel *)
Lemma write_shift (f : Z -> R) s n o x : fold_left (fun o j => upd o (s + j) (f j)) (range 0 n) o x = if (0 <=? x - s) && (x - s <? n) then f (x - s) else o x.
Proof. apply (own_row (fun j _ => f j) s n o x). Qed.
Lemma extend_trace_ok nabove nbelow ns trace o j : 0 <= nabove -> 0 <= nbelow -> 1 <= ns -> extend_trace nabove nbelow ns trace o j = if (0 <=? j) && (j <? nabove + ns + nbelow) then trace (clamp ns (j - nabove)) else o j.
Proof.
  intros Ha Hb Hn. unfold extend_trace. cbv zeta. rewrite (write_shift (fun _ => trace (ns - 1)) (nabove + ns)). rewrite (write_shift trace nabove). rewrite (fold_write (fun _ => trace 0)). unfold clamp.
  destruct (Z.leb_spec 0 j), (Z.ltb_spec j (nabove + ns + nbelow)), (Z.leb_spec 0 (j - (nabove + ns))), (Z.ltb_spec (j - (nabove + ns)) nbelow), (Z.leb_spec 0 (j - nabove)), (Z.ltb_spec (j - nabove) ns), (Z.ltb_spec j nabove); cbn [andb]; try lia; try reflexivity; f_equal; lia.
Qed.
Lemma nth_map_range {A} (f : Z -> A) n d k : 0 <= k < n -> nth (Z.to_nat k) (map f (range 0 n)) d = f k.
Proof.
  intros H. unfold range. rewrite map_map. rewrite (nth_indep _ d (f (0 + Z.of_nat 0))) by (rewrite map_length, seq_length; lia). rewrite (map_nth (fun k => f (0 + Z.of_nat k)) (seq 0 (Z.to_nat (n - 0))) 0%nat). rewrite seq_nth by lia. f_equal. lia.
Qed.
Lemma length_range n : 0 <= n -> Z.of_nat (length (range 0 n)) = n.
Proof. intros H. unfold range. rewrite map_length, seq_length. lia. Qed.
Section EXTEND.
Variables (nbefore nafter nabove nbelow ns : Z) (dx scl : R) (o0 : Z -> R).
Hypothesis (Hb : 0 <= nbefore) (Hf : 0 <= nafter) (Ha : 0 <= nabove) (Hw : 0 <= nbelow) (Hs : 1 <= ns).
Let extended_as (o tr : Z -> R) := forall j, 0 <= j < nabove + ns + nbelow -> o j = tr (clamp ns (j - nabove)).
Let body := fun '((out, itrace, last, o) : list (Z * (Z -> R)) * Z * Z * (Z -> R)) '((gx, trace) : Z * (Z -> R)) =>
    let o := extend_trace nabove nbelow ns trace o in
    let before := if itrace =? 0 then map (fun i => (to_int (IZR gx - IZR (nbefore - i) * dx * scl), o)) (range 0 nbefore) else [] in
    (out ++ before ++ [(gx, o)], itrace + 1, gx, o).
Lemma ext_as trace o : extended_as (extend_trace nabove nbelow ns trace o) trace.
Proof. intros j Hj. rewrite extend_trace_ok by assumption. destruct (Z.leb_spec 0 j), (Z.ltb_spec j (nabove + ns + nbelow)); cbn [andb]; try lia. reflexivity. Qed.
Lemma extend_fold x l : let '(out, itrace, last, o) := fold_left body (x :: l) ([], 0, 0, o0) in let n := Z.of_nat (length (x :: l)) in
  itrace = n /\ last = fst (nth (Z.to_nat (n - 1)) (x :: l) x) /\ extended_as o (snd (nth (Z.to_nat (n - 1)) (x :: l) x)) /\ Z.of_nat (length out) = nbefore + n /\
  (forall k, 0 <= k < nbefore + n -> let p := nth (Z.to_nat k) out x in let q := nth (Z.to_nat (clamp n (k - nbefore))) (x :: l) x in extended_as (snd p) (snd q) /\ fst p = if k <? nbefore then to_int (IZR (fst q) - IZR (nbefore - k) * dx * scl) else fst q).
Proof.
  induction l as [|y l IH] using rev_ind.
  - destruct x as [gx tr]. cbn [fold_left body]. cbn [Z.eqb app length]. set (o := extend_trace nabove nbelow ns tr o0). set (m := map _ (range 0 nbefore)). cbv zeta.
    assert (Lm : Z.of_nat (length m) = nbefore) by (unfold m; rewrite map_length; now apply length_range). conjs; try reflexivity.
    + apply ext_as.
    + rewrite app_length. cbn [length]. lia.
    + intros k Hk. replace (clamp (Z.of_nat 1) (k - nbefore)) with 0 by (unfold clamp; lia). cbn [Z.to_nat nth fst snd]. destruct (Z.ltb_spec k nbefore).
      * rewrite app_nth1 by lia. unfold m. rewrite nth_map_range by lia. cbn [fst snd]. split; [apply ext_as|reflexivity].
      * rewrite app_nth2 by lia. replace (Z.to_nat k - length m)%nat with 0%nat by lia. cbn [nth fst snd]. split; [apply ext_as|reflexivity].
  - rewrite app_comm_cons, fold_left_app. destruct (fold_left body (x :: l) ([], 0, 0, o0)) as [[[out it] last] o]. cbn [fold_left]. cbv zeta in IH. destruct IH as (I1 & I2 & I3 & I4 & I5). destruct y as [gx tr]. unfold body at 1. cbv zeta.
    set (L := x :: l) in *. assert (1 <= Z.of_nat (length L)) by (unfold L; cbn [length]; lia). destruct (Z.eqb_spec it 0); [lia|]. cbn [app]. set (o' := extend_trace nabove nbelow ns tr o).
    assert (LL : Z.of_nat (length (L ++ [(gx, tr)])) = Z.of_nat (length L) + 1) by (rewrite app_length; cbn [length]; lia). rewrite LL. assert (N : nth (Z.to_nat (Z.of_nat (length L) + 1 - 1)) (L ++ [(gx, tr)]) x = (gx, tr)).
    { rewrite app_nth2 by lia. replace (Z.to_nat (Z.of_nat (length L) + 1 - 1) - length L)%nat with 0%nat by lia. reflexivity. }
    rewrite N. cbn [fst snd]. conjs; try reflexivity; try lia.
    + apply ext_as.
    + rewrite app_length. cbn [length]. lia.
    + intros k Hk. destruct (Z.ltb_spec k (nbefore + Z.of_nat (length L))) as [K|K].
      * rewrite app_nth1 by lia. replace (clamp (Z.of_nat (length L) + 1) (k - nbefore)) with (clamp (Z.of_nat (length L)) (k - nbefore)) by (unfold clamp; lia). rewrite (app_nth1 L) by (unfold clamp; lia). apply I5. lia.
      * assert (k = nbefore + Z.of_nat (length L)) as -> by lia. rewrite app_nth2 by lia. replace (Z.to_nat (nbefore + Z.of_nat (length L)) - length out)%nat with 0%nat by lia. replace (clamp (Z.of_nat (length L) + 1) (nbefore + Z.of_nat (length L) - nbefore)) with (Z.of_nat (length L) + 1 - 1) by (unfold clamp; lia).
        rewrite N. cbn [nth fst snd]. destruct (Z.ltb_spec (nbefore + Z.of_nat (length L)) nbefore); [lia|]. split; [apply ext_as|reflexivity].
Qed.
(** C95: the extended model has nbefore traces more in front and nafter behind; every trace and sample is the nearest one of the input; the positions continue with steps dx. *)
Theorem C95_extend file d : file <> [] -> let n := Z.of_nat (length file) in let out := extend_model nbefore nafter nabove nbelow ns dx scl file o0 in
  Z.of_nat (length out) = nbefore + n + nafter /\
  (forall k, 0 <= k < nbefore + n + nafter -> let p := nth (Z.to_nat k) out d in let q := nth (Z.to_nat (clamp n (k - nbefore))) file d in
    (forall j, 0 <= j < nabove + ns + nbelow -> snd p j = snd q (clamp ns (j - nabove))) /\
    fst p = if k <? nbefore then to_int (IZR (fst q) - IZR (nbefore - k) * dx * scl) else if k <? nbefore + n then fst q else to_int (IZR (fst q) + IZR (k - nbefore - n + 1) * dx * scl)).
Proof.
  intros NE. destruct file as [|x l]; [congruence|]. set (L := x :: l) in *. assert (1 <= Z.of_nat (length L)) as L1 by (unfold L; cbn [length]; lia). cbv zeta. unfold extend_model. fold body. pose proof (extend_fold x l) as F. fold L in F. destruct (fold_left body L ([], 0, 0, o0)) as [[[out it] last] o]. cbv zeta in F. destruct F as (F1 & F2 & F3 & F4 & F5).
  set (m := map _ (range 0 nafter)). assert (Lm : Z.of_nat (length m) = nafter) by (unfold m; rewrite map_length; now apply length_range). split; [rewrite app_length; lia|].
  intros k Hk. assert (Q : nth (Z.to_nat (clamp (Z.of_nat (length L)) (k - nbefore))) L d = nth (Z.to_nat (clamp (Z.of_nat (length L)) (k - nbefore))) L x) by (apply nth_indep; unfold clamp; lia). rewrite Q.
  destruct (Z.ltb_spec k (nbefore + Z.of_nat (length L))) as [K|K].
  - rewrite app_nth1 by lia. rewrite (nth_indep out d x) by lia. destruct (F5 k ltac:(lia)) as [G1 G2]. split; [exact G1|]. rewrite G2. reflexivity.
  - rewrite app_nth2 by lia. replace (Z.to_nat k - length out)%nat with (Z.to_nat (k - nbefore - Z.of_nat (length L))) by lia. unfold m. rewrite nth_map_range by lia. replace (clamp (Z.of_nat (length L)) (k - nbefore)) with (Z.of_nat (length L) - 1) by (unfold clamp; lia). cbn [fst snd].
    destruct (Z.ltb_spec k nbefore); [lia|]. split; [exact F3|]. rewrite F2. reflexivity.
Qed.
End EXTEND.
Print Assumptions C95_extend.
(** positions are rounded towards zero *)
Theorem C95_position r : (Rabs (IZR (to_int r) - r) < 1)%R /\ (Rabs (IZR (to_int r)) <= Rabs r)%R /\ forall z, to_int (IZR z) = z.
Proof.
  conjs.
  - unfold to_int. destruct (Rlt_dec r 0).
    + destruct (base_Int_part (- r)) as [A B]. rewrite opp_IZR. apply Rabs_def1; lra.
    + destruct (base_Int_part r) as [A B]. apply Rabs_def1; lra.
  - unfold to_int. destruct (Rlt_dec r 0) as [L|L].
    + destruct (base_Int_part (- r)) as [A B]. rewrite opp_IZR, Rabs_Ropp, (Rabs_left r) by exact L. assert (0 <= Int_part (- r)) by (assert (-1 < Int_part (- r)); [apply lt_IZR; lra|lia]). rewrite Rabs_right by (apply Rle_ge, IZR_le; assumption). lra.
    + destruct (base_Int_part r) as [A B]. rewrite (Rabs_right r) by lra. assert (0 <= Int_part r) by (assert (-1 < Int_part r); [apply lt_IZR; lra|lia]). rewrite Rabs_right by (apply Rle_ge, IZR_le; assumption). lra.
  - intros z. assert (I : forall y, Int_part (IZR y) = y). { intros y. destruct (base_Int_part (IZR y)) as [A B]. apply le_IZR in A. assert (y - 1 < Int_part (IZR y)); [|lia]. apply lt_IZR. rewrite minus_IZR. lra. }
    unfold to_int. destruct (Rlt_dec (IZR z) 0); [rewrite <- opp_IZR, I; lia|apply I].
Qed.
Print Assumptions C95_position.
(** C95: the headers hold the number of samples written exactly if it is below 65536. *)
Theorem C95_header nabove nbelow ns : 0 <= nabove -> 0 <= nbelow -> 1 <= ns -> (header_ns nabove nbelow ns = nabove + ns + nbelow <-> nabove + ns + nbelow < 65536).
Proof.
  intros A B C. unfold header_ns. split; intros H.
  - pose proof (Z.mod_pos_bound (ns + nabove + nbelow) 65536 ltac:(lia)). lia.
  - rewrite Z.mod_small by lia. lia.
Qed.
Print Assumptions C95_header.
Theorem C95_header_refuted : exists nabove nbelow ns, 0 <= nabove /\ 0 <= nbelow /\ 1 <= ns < 65536 /\ header_ns nabove nbelow ns <> nabove + ns + nbelow.
Proof. exists 0, 1, 65535. unfold header_ns. cbn. lia. Qed.
Print Assumptions C95_header_refuted.
Example C95_nonvacuous : let out := extend_model 2 1 1 1 2 10 1 [(100, fun t => IZR (5 + t)); (110, fun t => IZR (7 + t))] (fun _ => 0%R) in
  Z.of_nat (length out) = 5 /\ fst (nth 0 out (0, fun _ => 0%R)) = 80 /\ fst (nth 4 out (0, fun _ => 0%R)) = 120 /\ snd (nth 4 out (0, fun _ => 0%R)) 3 = 8%R.
Proof.
  destruct (C95_extend 2 1 1 1 2 10 1 (fun _ => 0%R) ltac:(lia) ltac:(lia) ltac:(lia) ltac:(lia) ltac:(lia) [(100, fun t => IZR (5 + t)); (110, fun t => IZR (7 + t))] (0, fun _ => 0%R) ltac:(discriminate)) as [A B]. cbv zeta in *. split; [exact A|]. cbn [length] in B. change (Z.of_nat 2) with 2 in B.
  split; [|split].
  - destruct (B 0 ltac:(cbn; lia)) as [_ G]. change (Z.to_nat 0) with 0%nat in G. rewrite G. change (0 <? 2) with true. cbv iota. change (Z.to_nat (clamp 2 (0 - 2))) with 0%nat. cbn [nth fst].
    replace (IZR 100 - IZR (2 - 0) * 10 * 1)%R with (IZR 80) by (cbn; lra). apply (C95_position 0%R).
  - destruct (B 4 ltac:(cbn; lia)) as [_ G]. change (Z.to_nat 4) with 4%nat in G. rewrite G. change (4 <? 2) with false. change (4 <? 2 + 2) with false. cbv iota. change (Z.to_nat (clamp 2 (4 - 2))) with 1%nat. cbn [nth fst].
    replace (IZR 110 + IZR (4 - 2 - 2 + 1) * 10 * 1)%R with (IZR 120) by (cbn; lra). apply (C95_position 0%R).
  - destruct (B 4 ltac:(cbn; lia)) as [G _]. change (Z.to_nat 4) with 4%nat in G. rewrite G by lia. reflexivity.
Qed.
(** ** C95: truncate *)
(** C95: below the truncation depth every trace keeps the value at that depth; above it nothing changes. *)
Theorem C95_truncate ntr nz izt d : 0 <= ntr -> truncate_accepts nz izt = true -> let out := truncate_data ntr nz izt d in
  (forall i k, 0 <= i < ntr -> 0 <= k < nz -> out (i * nz + k) = d (i * nz + Z.min k izt)) /\ (forall x, ~ 0 <= x < ntr * nz -> out x = d x).
Proof.
  intros Hn Hacc out. unfold truncate_accepts in Hacc. apply andb_true_iff in Hacc. destruct Hacc as [A1 A2]. apply negb_true_iff, Z.ltb_ge in A1, A2.
  assert (RowG : forall (v : R) s a b (o : Z -> R) x, fold_left (fun d iz => upd d (s + iz) v) (range a b) o x = if (a <=? x - s) && (x - s <? b) then v else o x).
  { intros v s a b. destruct (Z.le_gt_cases b a) as [L|L].
    - intros o x. rewrite range_nil by lia. cbn [fold_left]. destruct (Z.leb_spec a (x - s)), (Z.ltb_spec (x - s) b); cbn [andb]; try reflexivity; lia.
    - replace b with (a + Z.of_nat (Z.to_nat (b - a))) by lia. generalize (Z.to_nat (b - a)). clear L b. induction n as [|n IH]; intros o x.
      + rewrite range_nil by lia. cbn [fold_left]. destruct (Z.leb_spec a (x - s)), (Z.ltb_spec (x - s) (a + Z.of_nat 0)); cbn [andb]; try reflexivity; lia.
      + replace (a + Z.of_nat (S n)) with (a + Z.of_nat n + 1) by lia. rewrite range_snoc by lia. rewrite fold_left_app. cbn [fold_left]. rewrite upd_eq, IH.
        destruct (Z.eqb_spec x (s + (a + Z.of_nat n))), (Z.leb_spec a (x - s)), (Z.ltb_spec (x - s) (a + Z.of_nat n)), (Z.ltb_spec (x - s) (a + Z.of_nat n + 1)); cbn [andb]; try reflexivity; lia. }
  unfold out, truncate_data. cbv zeta.
  destruct (BasopProofs.fold_rows (fun d ix => fold_left (fun d0 iz => upd d0 (ix * nz + iz) (d (ix * nz + izt))) (range (izt + 1) nz) d) (fun i r t => if izt <? t then r izt else r t) nz ntr d Hn) as [K1 K2].
  - intros o i x Hi. rewrite RowG. destruct (Z.leb_spec (izt + 1) (x - i * nz)), (Z.ltb_spec (x - i * nz) nz), (Z.leb_spec 0 (x - i * nz)), (Z.ltb_spec izt (x - i * nz)); cbn [andb]; try reflexivity; try lia; f_equal; lia.
  - intros i r r' t Hi E Ht. destruct (Z.ltb_spec izt t); apply E; lia.
  - split; [|exact K2]. intros i k Hi Hk. rewrite K1 by assumption. destruct (Z.ltb_spec izt k); f_equal; lia.
Qed.
Print Assumptions C95_truncate.
(** C95: depths from the second sample on are accepted, up to one sample behind the end. *)
Theorem C95_truncate_accepts nz izt : truncate_accepts nz izt = true <-> 1 <= izt <= nz.
Proof. unfold truncate_accepts. destruct (Z.ltb_spec nz izt), (Z.ltb_spec izt 1); cbn; split; intros; (reflexivity || lia || discriminate). Qed.
Print Assumptions C95_truncate_accepts.
(** the reads are inside the array for depths before the end; the depth just behind the last sample is accepted too *)
Theorem C95_truncate_reads ntr nz izt : 1 <= izt < nz -> forall a, In a (truncate_reads ntr nz izt) -> 0 <= a < ntr * nz.
Proof. intros H a Ha. unfold truncate_reads in Ha. apply in_map_iff in Ha. destruct Ha as (ix & <- & Hx). apply in_range in Hx. pose proof (Z.mul_nonneg_nonneg ix nz ltac:(lia) ltac:(lia)). pose proof (Z.mul_le_mono_nonneg_r (ix + 1) ntr nz ltac:(lia) ltac:(lia)). lia. Qed.
Print Assumptions C95_truncate_reads.
Theorem C95_truncate_end_refuted ntr nz : 1 <= ntr -> 1 <= nz -> truncate_accepts nz nz = true /\ In (ntr * nz) (truncate_reads ntr nz nz).
Proof.
  intros Hn Hz. split.
  - unfold truncate_accepts. destruct (Z.ltb_spec nz nz), (Z.ltb_spec nz 1); solve [reflexivity | lia].
  - unfold truncate_reads. apply in_map_iff. exists (ntr - 1). split; [ring|apply in_range; lia].
Qed.
Print Assumptions C95_truncate_end_refuted.
Example C95_truncate_nonvacuous : truncate_accepts 4 2 = true /\ truncate_data 2 4 2 (fun a => IZR a) (1 * 4 + 3) = IZR (1 * 4 + 2).
Proof. split; [reflexivity|]. destruct (C95_truncate 2 4 2 (fun a => IZR a) ltac:(lia) eq_refl) as [A _]. rewrite A by lia. reflexivity. Qed.
