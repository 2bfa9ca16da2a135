(** C86: random source signals of fdelmodc. *)
From Coq Require Import ZArith Reals List Bool Lia Lra Psatz.
From Verif Require Import ListAux FdKernels FdProofs FdOutputProofs Marchenko MarchenkoProofs KissFft FftSize FftSpec FftAux FftInverse LibFft PropertiesDft PropertiesRealFft FftLayout PropertiesFftLayout FconvSpec FconvProofs PropertiesSource Wavelet WaveletSpec WaveletProofs.
Import ListNotations.
Local Open Scope Z_scope.

(** The cubic has the prescribed values and slopes at both ends. *)
Theorem C86_cubic x1 x2 z1 z2 d1 d2 : x1 <> x2 -> let p := spline3 x1 x2 z1 z2 d1 d2 in
  cubic p x1 = z1 /\ cubic p x2 = z2 /\ slope p x1 = d1 /\ slope p x2 = d2.
Proof. intros H p. assert (x1 - x2 <> 0)%R by lra. unfold p, spline3, cubic, slope. repeat split; field; assumption. Qed.
Print Assumptions C86_cubic.

(** the search for the first crossing *)
Lemma forward_while_spec optn p r : forall fuel j, 0 <= j -> optn <= j + Z.of_nat fuel ->
  match forward_while optn fuel p r j with
  | Some k => j <= k < optn /\ p (r k) = false /\ forall i, j <= i < k -> p (r i) = true
  | None => forall i, j <= i < optn -> p (r i) = true
  end.
Proof.
  induction fuel as [|f IH]; intros j Hj Hf; cbn [forward_while].
  - intros i Hi. lia.
  - destruct (Z.ltb_spec j optn) as [L|L]; [|intros i Hi; lia]. destruct (p (r j)) eqn:E.
    + specialize (IH (j + 1) ltac:(lia) ltac:(lia)). destruct (forward_while optn f p r (j + 1)) as [k|].
      * destruct IH as (A & B & D). split; [lia|]. split; [exact B|]. intros i Hi. destruct (Z.eq_dec i j) as [->|]; [exact E|]. apply D. lia.
      * intros i Hi. destruct (Z.eq_dec i j) as [->|]; [exact E|]. apply IH. lia.
    + split; [lia|]. split; [exact E|]. intros i Hi. lia.
Qed.
Lemma sign_cases x : ((x < 0)%R /\ negative x = true) \/ ((0 <= x)%R /\ negative x = false).
Proof. unfold negative. destruct (Rlt_dec x 0); [left|right]; split; auto; lra. Qed.
Lemma sum_neg (f : Z -> R) n : (forall i, 0 <= i < Z.of_nat n -> (f i < 0)%R) -> (sum n f <= 0)%R /\ ((0 < n)%nat -> (sum n f < 0)%R).
Proof.
  induction n as [|n IH]; intros H; cbn [sum]; [split; [lra|lia]|]. destruct (IH ltac:(intros; apply H; lia)) as [A _]. pose proof (H (Z.of_nat n) ltac:(lia)). split; intros; lra.
Qed.
Lemma sum_pos (f : Z -> R) n : (0 <= f 0%Z)%R -> (forall i, 1 <= i < Z.of_nat n -> (0 < f i)%R) -> (0 <= sum n f)%R /\ ((2 <= n)%nat -> (0 < sum n f)%R).
Proof.
  intros H0. induction n as [|n IH]; intros H; cbn [sum]; [split; [lra|lia]|]. destruct (IH ltac:(intros; apply H; lia)) as [A _].
  destruct n as [|n]; [cbn [sum Z.of_nat] in *; split; [lra|lia]|]. pose proof (H (Z.of_nat (S n)) ltac:(lia)). split; intros; lra.
Qed.

(** A signal with zero mean crosses zero; the crossing found is the first sample that does not have the sign of the samples before. *)
Theorem C86_first_crossing optn r : 2 <= optn -> Sum optn r = 0%R ->
  exists itbeg, first_crossing optn r = Some itbeg /\ 1 <= itbeg < optn /\
   ((r 0%Z < 0)%R /\ (0 <= r itbeg)%R /\ (forall i, 0 <= i < itbeg -> (r i < 0)%R) \/
    (0 <= r 0%Z)%R /\ (r itbeg <= 0)%R /\ (forall i, 1 <= i < itbeg -> (0 < r i)%R)).
Proof.
  intros Ho Hs. unfold first_crossing, Sum in *.
  pose proof (forward_while_spec optn (if negative (r 0) then negative else positive) r (Z.to_nat optn) 1 ltac:(lia) ltac:(lia)) as F.
  destruct (sign_cases (r 0%Z)) as [[L N0]|[L N0]]; rewrite N0 in *.
  - destruct (forward_while optn (Z.to_nat optn) negative r 1) as [k|].
    + destruct F as (A & B & D). exists k. split; [reflexivity|]. split; [lia|]. left. unfold negative in B, D. split; [exact L|]. split; [destruct (Rlt_dec (r k) 0); [discriminate|lra]|].
      intros i Hi. destruct (Z.eq_dec i 0) as [->|]; [exact L|]. specialize (D i ltac:(lia)). destruct (Rlt_dec (r i) 0); [assumption|discriminate].
    + exfalso. destruct (sum_neg r (Z.to_nat optn)) as [_ S].
      * intros i Hi. destruct (Z.eq_dec i 0) as [->|]; [exact L|]. specialize (F i ltac:(lia)). unfold negative in F. destruct (Rlt_dec (r i) 0); [assumption|discriminate].
      * specialize (S ltac:(lia)). lra.
  - destruct (forward_while optn (Z.to_nat optn) positive r 1) as [k|].
    + destruct F as (A & B & D). exists k. split; [reflexivity|]. split; [lia|]. right. unfold positive in B, D. split; [lra|]. split; [destruct (Rlt_dec 0 (r k)); [discriminate|lra]|].
      intros i Hi. specialize (D i ltac:(lia)). destruct (Rlt_dec 0 (r i)); [assumption|discriminate].
    + exfalso. destruct (sum_pos r (Z.to_nat optn)) as [_ S]; [lra| |].
      * intros i Hi. specialize (F i ltac:(lia)). unfold positive in F. destruct (Rlt_dec 0 (r i)); [assumption|discriminate].
      * specialize (S ltac:(lia)). lra.
Qed.
Print Assumptions C86_first_crossing.

(** The random signals have zero mean, and the spectrum that was drawn. *)
Theorem C86_random_signal optn iwmax re im : 2 <= optn -> 1 <= iwmax <= optn / 2 + 1 ->
  let r := random_signal optn iwmax re im in
  Sum optn r = 0%R /\
  (forall k, 1 <= k -> 2 * k < optn -> spectrum optn r k = if k <? iwmax then times (IZR optn, 0)%R (re k, im k) else (0, 0)%R).
Proof.
  intros Ho Hw r. set (c := random_spectrum optn iwmax re im).
  pose proof (Z.div_mod optn 2 ltac:(lia)). pose proof (Z.mod_pos_bound optn 2 ltac:(lia)).
  assert (C : forall k, 0 <= k <= optn / 2 -> c k = if (1 <=? k) && (k <? iwmax) then (re k, im k) else c0).
  { intros k Hk. unfold c, random_spectrum. rewrite (fold_map (fun _ _ => (0, 0)%R)), (fold_map (fun iw _ => (re iw, im iw))).
    destruct (Z.leb_spec iwmax k), (Z.ltb_spec k (optn / 2 + 1)), (Z.leb_spec 1 k), (Z.ltb_spec k iwmax); cbn [andb]; try reflexivity; lia. }
  assert (Rt : forall t, 0 <= t < optn -> r t = fst (dft optn 1 (hermitian optn c) t)).
  { intros t Ht. unfold r, random_signal. fold c. rewrite (fold_write (fun t => fst (dft optn 1 (hermitian optn c) t))). destruct (Z.leb_spec 0 t), (Z.ltb_spec t optn); try lia. reflexivity. }
  set (c' := fun k => if (k =? 0) || (2 * k =? optn) then (fst (c k), 0%R) else c k).
  assert (Hh : forall k, 0 <= k < optn -> hermitian optn c k = hermitian optn c' k).
  { intros m Hm. unfold hermitian, c'. destruct (Z.eqb_spec m 0) as [->|N0]; [reflexivity|]. destruct (Z.ltb_spec (2 * m) optn).
    - destruct (Z.eqb_spec (2 * m) optn); [lia|reflexivity].
    - destruct (Z.eqb_spec (2 * m) optn); [cbn [orb fst]; reflexivity|]. destruct (Z.eqb_spec (optn - m) 0); [lia|]. destruct (Z.eqb_spec (2 * (optn - m)) optn); [lia|]. reflexivity. }
  assert (O1 : 1 <= optn) by lia. assert (Nz : IZR optn <> 0%R) by (apply not_0_IZR; lia).
  assert (C0 : snd (c' 0) = 0%R) by reflexivity.
  assert (C2 : 2 * (optn / 2) = optn -> snd (c' (optn / 2)) = 0%R). { intros Q. unfold c'. rewrite Q, Z.eqb_refl, orb_true_r. reflexivity. }
  assert (SP : forall k, 0 <= k <= optn / 2 -> spectrum optn r k = scaled (IZR optn) (c' k)).
  { intros k Hk. rewrite (spectrum_exists optn O1 c' C0 C2 k Hk). unfold spectrum.
    transitivity (dft optn (-1) (fun t => cadd (cmul (IZR optn, 0)%R (real_values (fun t => / IZR optn * fst (dft optn 1 (hermitian optn c') t))%R t)) (cmul c0 c0)) k).
    - apply PropertiesFftLayout.dft_ext. intros i Hi. unfold real_values, cadd, cmul, c0. cbn [fst snd]. rewrite Rt by exact Hi.
      rewrite (PropertiesFftLayout.dft_ext optn 1 (hermitian optn c) (hermitian optn c') i Hh). f_equal; field; assumption.
    - rewrite dft_lin. unfold cadd, cmul, scaled, c0. cbn [fst snd]. f_equal; ring. }
  split.
  - pose proof (SP 0 ltac:(lia)) as E. unfold spectrum, dft in E.
    rewrite (total_ext _ _ (fun j => (r j, 0%R))) in E by (intros j _; rewrite Z.mul_0_r, root_0; unfold FftSpec.times, real_values, c1; cbn [fst snd]; f_equal; ring).
    rewrite Sum_total in E. unfold c' in E. cbn [Z.eqb orb] in E. rewrite C in E by lia. cbn [Z.leb Z.compare andb] in E. unfold scaled, c0 in E. cbn [fst snd] in E. apply (f_equal fst) in E. cbn [fst] in E. lra.
  - intros k Hk Hk2. rewrite SP by lia. unfold c'. destruct (Z.eqb_spec k 0); [lia|]. destruct (Z.eqb_spec (2 * k) optn); [lia|]. cbn [orb]. rewrite C by lia.
    destruct (Z.leb_spec 1 k); [|lia]. cbn [andb]. destruct (k <? iwmax); unfold scaled, FftSpec.times, c0; cbn [fst snd]; f_equal; ring.
Qed.
Print Assumptions C86_random_signal.

(** the search for the last crossing *)
Lemma backward_while_spec p r itbeg : forall fuel j, j <= itbeg + Z.of_nat fuel ->
  let k := backward_while fuel p r itbeg j in k <= j /\ (itbeg <= j -> itbeg <= k) /\ (k <= itbeg \/ p (r k) = false) /\ (forall i, k < i <= j -> p (r i) = true).
Proof.
  induction fuel as [|f IH]; intros j Hj; cbn [backward_while].
  - repeat split; try lia.
  - destruct (p (r j)) eqn:E; cbn [andb].
    + destruct (Z.ltb_spec itbeg j) as [L|L].
      * destruct (IH (j - 1) ltac:(lia)) as (A & B & C & D). repeat split; try lia; [exact C|]. intros i Hi. destruct (Z.eq_dec i j) as [->|]; [exact E|]. apply D. lia.
      * repeat split; try lia.
    + repeat split; try lia. right. exact E.
Qed.
Lemma nearest_bound (a : Z) (len : R) n : nearest len n -> Int_part (IZR a + len + / 2) = a + n.
Proof. intros [A B]. apply Int_part_is. rewrite plus_IZR. lra. Qed.

(** The end of the signal: the last sample, at most the wanted length after the beginning, that does not have the sign of the
    samples after it. *)
Theorem C86_last_crossing n1 r itbeg len n : nearest len n -> itbeg <= n1 -> 0 <= n ->
  let last := Z.min (itbeg + n) n1 in let itmax := last_crossing n1 r itbeg len in
  itbeg <= itmax <= last /\
  ((r (last - 1)%Z < 0)%R /\ (forall i, itmax < i <= last -> (r i < 0)%R) /\ (itmax = itbeg \/ (0 <= r itmax)%R) \/
   (0 <= r (last - 1)%Z)%R /\ (forall i, itmax < i <= last -> (0 < r i)%R) /\ (itmax = itbeg \/ (r itmax <= 0)%R)).
Proof.
  intros Hn Hb Hn0 last itmax. unfold itmax, last_crossing, last_start. rewrite (nearest_bound itbeg len n Hn). fold last. cbv zeta.
  assert (Hl : itbeg <= last) by (unfold last; lia).
  pose proof (backward_while_spec (if negative (r (last - 1)) then negative else positive) r itbeg (Z.to_nat (last - itbeg)) last ltac:(lia)) as (A & B & C & D).
  set (k := backward_while _ _ _ _ _) in *. split; [lia|]. destruct (sign_cases (r (last - 1)%Z)) as [[L N0]|[L N0]]; rewrite N0 in *; [left|right].
  - split; [exact L|]. split.
    + intros i Hi. specialize (D i Hi). unfold negative in D. destruct (Rlt_dec (r i) 0); [assumption|discriminate].
    + destruct C as [C|C]; [left; lia|right]. unfold negative in C. destruct (Rlt_dec (r k) 0); [discriminate|lra].
  - split; [lra|]. split.
    + intros i Hi. specialize (D i Hi). unfold positive in D. destruct (Rlt_dec 0 (r i)); [assumption|discriminate].
    + destruct C as [C|C]; [left; lia|right]. unfold positive in C. destruct (Rlt_dec 0 (r k)); [discriminate|lra].
Qed.
Print Assumptions C86_last_crossing.

Lemma put_cubic_at p j0 n r x : put_cubic p j0 n r x = if (j0 <=? x) && (x <? j0 + n) then cubic p (IZR (x - j0)) else r x.
Proof.
  unfold put_cubic, cubic. destruct p as [[[a b] c] d].
  assert (E : forall l m, fold_left (fun r j => upd r (j0 + j) (a * IZR j * IZR j * IZR j + b * IZR j * IZR j + c * IZR j + d)%R) l m =
    fold_left (fun r j => upd r j (a * IZR (j - j0) * IZR (j - j0) * IZR (j - j0) + b * IZR (j - j0) * IZR (j - j0) + c * IZR (j - j0) + d)%R) (map (fun j => j0 + j) l) m).
  { induction l as [|y l IH]; intros m; cbn [fold_left map]; [reflexivity|]. rewrite IH. replace (j0 + y - j0) with y by ring. reflexivity. }
  cbv zeta. rewrite E.
  assert (M : forall k, 0 <= k -> map (fun j => j0 + j) (range 0 k) = range j0 (j0 + k)).
  { intros k Hk. pattern k. apply natlike_ind; [now rewrite !range_nil by lia| |exact Hk]. intros y Hy IH. unfold Z.succ. rewrite range_snoc by lia. rewrite map_app, IH. rewrite Z.add_assoc, range_snoc by lia. reflexivity. }
  destruct (Z.le_gt_cases 0 n) as [L|L].
  - rewrite M by exact L. rewrite (fold_map (fun j _ => a * IZR (j - j0) * IZR (j - j0) * IZR (j - j0) + b * IZR (j - j0) * IZR (j - j0) + c * IZR (j - j0) + d)%R).
    destruct (Z.leb_spec j0 x), (Z.ltb_spec x (j0 + n)); try reflexivity. cbn [andb]. ring.
  - rewrite range_nil by lia. cbn [map fold_left]. destruct (Z.leb_spec j0 x), (Z.ltb_spec x (j0 + n)); cbn [andb]; try reflexivity; lia.
Qed.

(** The signal: the random samples between the crossings, with a cubic over the first and the last ten samples that connects
    them smoothly with silence. *)
Theorem C86_signal optn n1 r len trace itbeg : first_crossing optn r = Some itbeg -> 1 <= itbeg -> let itmax := last_crossing n1 r itbeg len in
  22 <= itmax - itbeg ->
  exists p q out, randomWavelet optn n1 r len trace = Some out /\
    cubic p 0 = 0%R /\ slope p 0 = 0%R /\ cubic p 10 = r (itbeg + 10) /\ slope p 10 = difference4 r (itbeg + 10) /\
    cubic q 0 = r (itmax - 10) /\ slope q 0 = difference4 r (itmax - 10) /\ cubic q 10 = 0%R /\ slope q 10 = 0%R /\
    (forall j, 0 <= j < itmax - itbeg -> out j = if j <? 10 then cubic p (IZR j) else if j <? itmax - itbeg - 10 then r (itbeg + j) else cubic q (IZR (j - (itmax - itbeg - 10)))) /\
    (forall j, ~ 0 <= j < itmax - itbeg -> out j = trace j).
Proof.
  intros F Hb itmax Hl. unfold randomWavelet. rewrite F. fold itmax. cbv zeta.
  replace (Z.min 10 itmax) with 10 by lia.
  set (p := spline3 0 10 0 (r (itbeg + 10)) 0 (derivative r (itbeg + 10))). set (r1 := smooth_begin r itbeg 10).
  set (q := spline3 0 10 (r1 (itmax - 10)) 0 (derivative r1 (itmax - 10)) 0).
  assert (R1 : forall x, r1 x = if (itbeg <=? x) && (x <? itbeg + 10) then cubic p (IZR (x - itbeg)) else r x) by (intros x; apply put_cubic_at).
  assert (R1' : forall x, itmax - 12 <= x -> r1 x = r x). { intros x Hx. rewrite R1. destruct (Z.leb_spec itbeg x), (Z.ltb_spec x (itbeg + 10)); cbn [andb]; try reflexivity; lia. }
  assert (R2 : forall x, smooth_end r1 itmax 10 x = if (itmax - 10 <=? x) && (x <? itmax - 10 + 10) then cubic q (IZR (x - (itmax - 10))) else r1 x) by (intros x; apply put_cubic_at).
  exists p, q. eexists. split; [reflexivity|].
  destruct (C86_cubic 0 10 0 (r (itbeg + 10)) 0 (derivative r (itbeg + 10)) ltac:(lra)) as (P1 & P2 & P3 & P4). fold p in P1, P2, P3, P4.
  destruct (C86_cubic 0 10 (r1 (itmax - 10)) 0 (derivative r1 (itmax - 10)) 0 ltac:(lra)) as (Q1 & Q2 & Q3 & Q4). fold q in Q1, Q2, Q3, Q4.
  split; [exact P1|]. split; [exact P3|]. split; [exact P2|]. split; [rewrite P4; reflexivity|].
  split; [rewrite Q1; apply R1'; lia|]. split; [rewrite Q3; unfold derivative, difference4; rewrite !R1' by lia; reflexivity|]. split; [exact Q2|]. split; [exact Q4|].
  assert (W : forall (rr : Z -> R) j, fold_left (fun tr j => upd tr (j - itbeg) (rr j)) (range itbeg itmax) trace j = if (0 <=? j) && (j <? itmax - itbeg) then rr (j + itbeg) else trace j).
  { intros rr j. assert (G : forall l m, fold_left (fun tr j => upd tr (j - itbeg) (rr j)) l m = fold_left (fun tr j => upd tr j (rr (j + itbeg))) (map (fun j => j - itbeg) l) m).
    { induction l as [|y l IH]; intros m; cbn [fold_left map]; [reflexivity|]. rewrite IH. replace (y - itbeg + itbeg) with y by ring. reflexivity. }
    rewrite G. assert (M : forall k, 0 <= k -> map (fun j => j - itbeg) (range itbeg (itbeg + k)) = range 0 k).
    { intros k Hk. pattern k. apply natlike_ind; [now rewrite !range_nil by lia| |exact Hk]. intros y Hy IH. unfold Z.succ. rewrite Z.add_assoc, range_snoc by lia. rewrite map_app, IH. rewrite range_snoc by lia. cbn [map]. f_equal. f_equal. ring. }
    replace itmax with (itbeg + (itmax - itbeg)) at 1 by ring. rewrite M by lia. rewrite (fold_write (fun j => rr (j + itbeg))). reflexivity. }
  split.
  - intros j Hj. rewrite W. destruct (Z.leb_spec 0 j), (Z.ltb_spec j (itmax - itbeg)); try lia; cbn [andb]. rewrite R2, R1. replace (j + itbeg) with (itbeg + j) by ring.
    destruct (Z.ltb_spec j 10).
    + destruct (Z.leb_spec (itmax - 10) (itbeg + j)); [lia|]. destruct (Z.leb_spec itbeg (itbeg + j)), (Z.ltb_spec (itbeg + j) (itbeg + 10)); try lia; cbn [andb]. f_equal. f_equal. ring.
    + destruct (Z.ltb_spec j (itmax - itbeg - 10)).
      * destruct (Z.leb_spec (itmax - 10) (itbeg + j)); [lia|]. destruct (Z.leb_spec itbeg (itbeg + j)), (Z.ltb_spec (itbeg + j) (itbeg + 10)); try lia; reflexivity.
      * destruct (Z.leb_spec (itmax - 10) (itbeg + j)), (Z.ltb_spec (itbeg + j) (itmax - 10 + 10)); try lia; cbn [andb]. f_equal. f_equal. ring.
  - intros j Hj. rewrite W. destruct (Z.leb_spec 0 j), (Z.ltb_spec j (itmax - itbeg)); try lia; reflexivity.
Qed.
Print Assumptions C86_signal.

(** Room: a signal never has more samples than were reserved for it, NINT(len) + 1. *)
Theorem C86_room optn n1 r len n trace out : nearest len n -> 0 <= n -> randomWavelet optn n1 r len trace = Some out ->
  forall j, n + 1 <= j -> out j = trace j.
Proof.
  intros Hn Hn0 E j Hj. unfold randomWavelet in E. destruct (first_crossing optn r) as [itbeg|]; [|discriminate]. cbv zeta in E. assert (E2 : forall (a b : Z -> R), Some a = Some b -> a = b) by congruence. apply E2 in E. clear E2.
  assert (Hm : last_crossing n1 r itbeg len <= itbeg + n).
  { unfold last_crossing, last_start. rewrite (nearest_bound itbeg len n Hn). cbv zeta. set (l := Z.min (itbeg + n) n1).
    destruct (Z.le_gt_cases l (itbeg + Z.of_nat (Z.to_nat (l - itbeg)))) as [L|L]; [|lia].
    destruct (backward_while_spec (if negative (r (l - 1)) then negative else positive) r itbeg (Z.to_nat (l - itbeg)) l L) as (A & _). unfold l in *. lia. }
  rewrite <- E. set (rr := smooth_end _ _ _). set (im := last_crossing n1 r itbeg len) in *. clearbody im rr. clear E.
  assert (G : forall l m, (forall i, In i l -> i - itbeg <> j) -> fold_left (fun tr j => upd tr (j - itbeg) (rr j)) l m j = m j).
  { induction l as [|y l IH]; intros m Hl; cbn [fold_left]; [reflexivity|]. rewrite IH by (intros i Hi; apply Hl; now right). apply upd_other. intros Q. apply (Hl y); [now left|congruence]. }
  apply G. intros i Hi. apply in_range in Hi. lia.
Qed.
Print Assumptions C86_room.

(** All samples used for the smoothing exist, if the end is at least 12 samples from the start of the array and the beginning 12 samples from its end. *)
Theorem C86_reads optn n1 itbeg itmax : 0 <= itbeg -> itbeg + 12 < optn -> 12 <= itmax <= n1 -> n1 <= optn -> forall i, In i (other_reads itbeg itmax) -> 0 <= i < optn.
Proof.
  intros H1 H2 H3 H4 i Hi. unfold other_reads, derivative_reads in Hi. replace (Z.min 10 itmax) with 10 in Hi by lia. cbn [In app] in Hi. lia.
Qed.
Print Assumptions C86_reads.

(** Refuted: short signals.  When the end comes less than 12 samples after the start of the array, a sample before the array is used. *)
Theorem C86_short_signal_refuted n1 r itbeg len : 0 <= itbeg -> (0 <= len)%R -> itbeg <= n1 -> (IZR itbeg + len + / 2 < 12)%R ->
  let itmax := last_crossing n1 r itbeg len in exists i, In i (other_reads itbeg itmax) /\ i < 0.
Proof.
  intros Hb Hl Hn Hs itmax. exists (itmax - Z.min 10 itmax - 2). split.
  - unfold other_reads, derivative_reads. cbn [In app]. auto 12.
  - assert (U : last_start n1 itbeg len <= 11).
    { unfold last_start. pose proof (base_Int_part (IZR itbeg + len + / 2)) as [B1 _]. assert (Int_part (IZR itbeg + len + / 2) < 12) by (apply lt_IZR; lra). lia. }
    assert (LL : itbeg <= last_start n1 itbeg len).
    { unfold last_start. pose proof (base_Int_part (IZR itbeg + len + / 2)) as [_ B2]. assert (itbeg - 1 < Int_part (IZR itbeg + len + / 2)) by (apply lt_IZR; rewrite minus_IZR; lra). lia. }
    unfold itmax, last_crossing. cbv zeta. set (l := last_start n1 itbeg len) in *.
    destruct (backward_while_spec (if negative (r (l - 1)) then negative else positive) r itbeg (Z.to_nat (l - itbeg)) l ltac:(lia)) as (A & B & _). lia.
Qed.
Print Assumptions C86_short_signal_refuted.

(** a signal of 64 samples with zero mean that begins at sample 1 and ends at sample 30 *)
Example C86_nonvacuous : exists itbeg,
  first_crossing 64 (fun t => if t =? 0 then 62%R else if t =? 30 then 0%R else (-1)%R) = Some itbeg /\ Sum 64 (fun t => if t =? 0 then 62%R else if t =? 30 then 0%R else (-1)%R) = 0%R /\ nearest 29 29 /\
  last_crossing 32 (fun t => if t =? 0 then 62%R else if t =? 30 then 0%R else (-1)%R) itbeg 29 - itbeg = 29.
Proof.
  exists 1. split; [|split; [|split]].
  - unfold first_crossing, negative at 1. cbn [Z.eqb]. destruct (Rlt_dec 62 0); [lra|]. change (Z.to_nat 64) with (S 63). cbn [forward_while]. change (1 <? 64) with true. cbn iota. cbn [Z.eqb Pos.eqb].
    unfold positive at 1. destruct (Rlt_dec 0 (-1)); [lra|reflexivity].
  - unfold Sum. change (Z.to_nat 64) with 64%nat. cbn [sum Z.of_nat Pos.of_succ_nat Pos.succ Z.eqb Pos.eqb]. lra.
  - unfold nearest. lra.
  - unfold last_crossing, last_start. rewrite (Int_part_is _ 30) by lra. cbv zeta. cbn [Z.min Z.compare Pos.compare Pos.compare_cont].
    change (30 - 1) with 29. unfold negative at 1. cbn [Z.eqb Pos.eqb]. destruct (Rlt_dec (-1) 0); [|lra]. change (Z.to_nat 29) with (S 28). cbn [backward_while Z.eqb Pos.eqb].
    unfold negative at 1. destruct (Rlt_dec 0 0); [lra|]. reflexivity.
Qed.
