(** Properties of the virtual traces of corrvir (C93). *)
From Coq Require Import ZArith Reals List Bool Lia Lra Psatz.
From Verif Require Import ListAux FdKernels FdProofs FdOutputProofs Marchenko MarchenkoProofs KissFft FftAux FftSpec FconvSpec FconvProofs PropertiesDft PropertiesRealFft BasopProofs PropertiesBasop PropertiesBasop2 PropertiesFreeSurface CorrvirSpec Corrvir.
Import ListNotations.
Local Open Scope Z_scope.
Local Notation cmul := KissFft.cmul.
Local Notation cadd := KissFft.cadd.

(** ** auxiliary: loops *)
(** every cell of a row is replaced by a function of its own old value *)
Lemma own_row {V} (h : Z -> V -> V) s n (o : Z -> V) x :
  fold_left (fun o j => upd o (s + j) (h j (o (s + j)))) (range 0 n) o x = if (0 <=? x - s) && (x - s <? n) then h (x - s) (o x) else o x.
Proof.
  destruct (Z.le_gt_cases n 0) as [L|L].
  - rewrite range_nil by lia. cbn [fold_left]. destruct (Z.leb_spec 0 (x - s)), (Z.ltb_spec (x - s) n); cbn [andb]; try reflexivity; lia.
  - replace n with (Z.of_nat (Z.to_nat n)) by lia. generalize (Z.to_nat n). clear L n. intros n. revert x. induction n as [|n IH]; intros x.
    + rewrite range_nil by lia. cbn [fold_left]. destruct (Z.leb_spec 0 (x - s)), (Z.ltb_spec (x - s) (Z.of_nat 0)); cbn [andb]; try reflexivity; lia.
    + replace (Z.of_nat (S n)) with (Z.of_nat n + 1) by lia. rewrite range_snoc by lia. rewrite fold_left_app. cbn [fold_left]. rewrite upd_eq, !IH.
      destruct (Z.eqb_spec x (s + Z.of_nat n)) as [->|N].
      * replace (s + Z.of_nat n - s) with (Z.of_nat n) by ring. destruct (Z.leb_spec 0 (Z.of_nat n)), (Z.ltb_spec (Z.of_nat n) (Z.of_nat n)), (Z.ltb_spec (Z.of_nat n) (Z.of_nat n + 1)); cbn [andb]; try reflexivity; lia.
      * destruct (Z.leb_spec 0 (x - s)), (Z.ltb_spec (x - s) (Z.of_nat n)), (Z.ltb_spec (x - s) (Z.of_nat n + 1)); cbn [andb]; try reflexivity; lia.
Qed.
Lemma own_rows {V} (h : Z -> Z -> V -> V) nf n (o : Z -> V) : 0 <= n ->
  let q := fold_left (fun o i => fold_left (fun o j => upd o (i * nf + j) (h i j (o (i * nf + j)))) (range 0 nf) o) (range 0 n) o in
  (forall i k, 0 <= i < n -> 0 <= k < nf -> q (i * nf + k) = h i k (o (i * nf + k))) /\ (forall x, ~ 0 <= x < n * nf -> q x = o x).
Proof.
  intros Hn q. destruct (fold_rows (fun o i => fold_left (fun o j => upd o (i * nf + j) (h i j (o (i * nf + j)))) (range 0 nf) o) (fun i r t => h i t (r t)) nf n o Hn) as [A B].
  - intros o' i x Hi. rewrite own_row. destruct (Z.leb_spec 0 (x - i * nf)), (Z.ltb_spec (x - i * nf) nf); cbn [andb]; try reflexivity. now replace (i * nf + (x - i * nf)) with x by ring.
  - intros i r r' t Hi E Ht. now rewrite E.
  - split; [exact A|exact B].
Qed.

(** ** correlation and coherence *)
(** C93: every station and frequency: conj(A) B. *)
Theorem C93_correlate cm cs nfreq ncor : 0 <= ncor -> let q := correlate cm cs nfreq ncor in
  (forall i k, 0 <= i < ncor -> 0 <= k < nfreq -> q (i * nfreq + k) = cmul (FconvSpec.conjugate (cm (i * nfreq + k))) (cs (i * nfreq + k))) /\ (forall x, ~ 0 <= x < ncor * nfreq -> q x = cs x).
Proof.
  intros Hn. destruct (own_rows (fun i j b => let a := cm (i * nfreq + j) in (fst a * fst b + snd a * snd b, fst a * snd b - snd a * fst b)%R) nfreq ncor cs Hn) as [A B]. split; [|exact B].
  intros i k Hi Hk. etransitivity; [apply A; assumption|]. unfold KissFft.cmul, FconvSpec.conjugate. cbn [fst snd]. f_equal; ring.
Qed.
Print Assumptions C93_correlate.
Lemma maxden_largest d nfreq icc : 1 <= nfreq -> (forall a, 0 <= d a)%R -> largest nfreq (fun k => d (icc + k)) (maxden d nfreq icc).
Proof.
  intros Hn D. unfold maxden. assert (G : forall k : nat, (0 <= fold_left (fun m j => Rmax m (d (icc + j)%Z)) (range 0 (Z.of_nat k)) 0)%R /\ (forall j, 0 <= j < Z.of_nat k -> (d (icc + j)%Z <= fold_left (fun m j => Rmax m (d (icc + j)%Z)) (range 0 (Z.of_nat k)) 0)%R) /\
    ((1 <= k)%nat -> exists j, 0 <= j < Z.of_nat k /\ d (icc + j) = fold_left (fun m j => Rmax m (d (icc + j)%Z)) (range 0 (Z.of_nat k)) 0%R)).
  { induction k as [|k (I0 & I1 & I2)].
    - rewrite (range_nil 0 (Z.of_nat 0)) by lia. cbn. split; [lra|]. split; [intros; lia|lia].
    - replace (Z.of_nat (S k)) with (Z.of_nat k + 1) by lia. rewrite range_snoc by lia. rewrite fold_left_app. cbn [fold_left]. set (m := fold_left _ (range 0 (Z.of_nat k)) 0%R) in *. replace (0 + Z.of_nat k) with (Z.of_nat k) by ring. split; [|split].
      + apply Rle_trans with m; [exact I0|apply Rmax_l].
      + intros j Hj. destruct (Z.eq_dec j (Z.of_nat k)) as [->|N]; [apply Rmax_r|]. apply Rle_trans with m; [apply I1; lia|apply Rmax_l].
      + intros _. unfold Rmax. destruct (Rle_dec m (d (icc + Z.of_nat k))) as [L|L]; [exists (Z.of_nat k); split; [lia|reflexivity]|].
        destruct k as [|k]; [exfalso; apply L; unfold m; rewrite (range_nil 0 (Z.of_nat 0)) by lia; cbn [fold_left]; apply D|]. destruct I2 as (j & Hj & E); [lia|]. exists j. split; [lia|exact E]. }
  destruct (G (Z.to_nat nfreq)) as (_ & G1 & G2). rewrite Z2Nat.id in G1, G2 by lia. split; [exact G1|]. apply G2. lia.
Qed.
Lemma den_nonneg cm cs a : (0 <= den cm cs a)%R. Proof. unfold den. apply Rmult_le_pos; apply sqrt_pos. Qed.
(** amplitude of a complex number *)
Definition amplitude (z : R * R) : R := sqrt (energy z).
(** C93: the coherence divides the correlation by the product d of the amplitudes, with the constant reps times the largest d of the station for d below the cut-off; if d is the cut-off itself nowhere. *)
Theorem C93_coherence scl0 cm cs nfreq ncor reps epsmax : 0 <= ncor -> 1 <= nfreq -> let d (i k : Z) := (amplitude (cm (i * nfreq + k)%Z) * amplitude (cs (i * nfreq + k)%Z))%R in
  exists M, (forall i, 0 <= i < ncor -> largest nfreq (d i) (M i)) /\
  ((forall i k, 0 <= i < ncor -> 0 <= k < nfreq -> d i k = (epsmax * M i)%R -> d i k = 0%R) ->
   let q := coherence scl0 cm cs nfreq ncor reps epsmax in
   (forall i k, 0 <= i < ncor -> 0 <= k < nfreq -> let x := cmul (FconvSpec.conjugate (cm (i * nfreq + k))) (cs (i * nfreq + k)) in
     ((epsmax * M i < d i k)%R -> q (i * nfreq + k) = scaled (/ d i k) x) /\
     ((d i k < epsmax * M i)%R -> d i k <> 0%R -> q (i * nfreq + k) = scaled (/ (d i k + reps * M i)) x) /\
     (~ (epsmax * M i < d i k)%R -> d i k = 0%R -> q (i * nfreq + k) = x)) /\ (forall x, ~ 0 <= x < ncor * nfreq -> q x = cs x)).
Proof.
  intros Hn Hf d. exists (fun i => maxden (den cm cs) nfreq (i * nfreq)).
  assert (Dd : forall i k, den cm cs (i * nfreq + k) = d i k) by reflexivity.
  split. { intros i Hi. apply (maxden_largest (den cm cs) nfreq (i * nfreq) Hf), den_nonneg. }
  intros NT q. set (M := fun i => maxden (den cm cs) nfreq (i * nfreq)) in *.
  set (h := fun i j (b : R * R) => let a := cm (i * nfreq + j) in let scl := factor reps epsmax (M i) (d i j) 0 in ((fst a * fst b + snd a * snd b) * scl, (fst a * snd b - snd a * fst b) * scl)%R).
  assert (F : forall i j scl, 0 <= i < ncor -> 0 <= j < nfreq -> factor reps epsmax (M i) (d i j) scl = factor reps epsmax (M i) (d i j) 0).
  { intros i j scl Hi Hj. unfold factor. destruct (Rlt_dec (epsmax * M i) (d i j)); [reflexivity|]. destruct (Rlt_dec (d i j) (epsmax * M i)); [reflexivity|]. destruct (Req_EM_T (d i j) 0) as [|N]; [reflexivity|]. exfalso. apply N, NT; [exact Hi|exact Hj|]. unfold M in *. lra. }
  assert (Row : forall i l, 0 <= i < ncor -> (forall j, In j l -> 0 <= j < nfreq) -> forall o scl, fst (fold_left (fun '(q, scl) j =>
      let scl := factor reps epsmax (M i) (den cm cs (i * nfreq + j)) scl in
      let a := cm (i * nfreq + j) in let b := q (i * nfreq + j) in
      (upd q (i * nfreq + j) ((fst a * fst b + snd a * snd b) * scl, (fst a * snd b - snd a * fst b) * scl)%R, scl)) l (o, scl)) = fold_left (fun o j => upd o (i * nfreq + j) (h i j (o (i * nfreq + j)))) l o).
  { intros i l Hi. induction l as [|j l IH]; intros Hl o scl; [reflexivity|]. cbn [fold_left]. cbv zeta. rewrite IH by (intros j' H'; apply Hl; now right). rewrite Dd, F; [reflexivity|exact Hi|apply Hl; now left]. }
  assert (All : forall l, (forall i, In i l -> 0 <= i < ncor) -> forall o scl, fst (fold_left (fun st istation =>
    let m := maxden (den cm cs) nfreq (istation * nfreq) in
    fold_left (fun '(q, scl) j =>
      let scl := factor reps epsmax m (den cm cs (istation * nfreq + j)) scl in
      let a := cm (istation * nfreq + j) in let b := q (istation * nfreq + j) in
      (upd q (istation * nfreq + j) ((fst a * fst b + snd a * snd b) * scl, (fst a * snd b - snd a * fst b) * scl)%R, scl)) (range 0 nfreq) st) l (o, scl)) = fold_left (fun o i => fold_left (fun o j => upd o (i * nfreq + j) (h i j (o (i * nfreq + j)))) (range 0 nfreq) o) l o).
  { induction l as [|i l IH]; intros Hl o scl; [reflexivity|]. cbn [fold_left]. cbv zeta. change (maxden (den cm cs) nfreq (i * nfreq)) with (M i).
    pose proof (Row i (range 0 nfreq) (Hl i (or_introl eq_refl)) (fun j H => proj1 (in_range 0 nfreq j) H) o scl) as Rw. cbv zeta in Rw. destruct (fold_left _ (range 0 nfreq) (o, scl)) as [o' scl'] in Rw |- *. cbn [fst] in Rw. subst o'. apply IH. intros i' H'. apply Hl. now right. }
  assert (E : q = fold_left (fun o i => fold_left (fun o j => upd o (i * nfreq + j) (h i j (o (i * nfreq + j)))) (range 0 nfreq) o) (range 0 ncor) cs).
  { unfold q, coherence. cbv zeta. apply All. intros i Hi. now apply in_range in Hi. }
  destruct (own_rows h nfreq ncor cs Hn) as [A B]. rewrite E. split; [|exact B]. intros i k Hi Hk x. rewrite A by assumption. unfold h, factor, x, scaled, KissFft.cmul, FconvSpec.conjugate. cbn [fst snd]. change (maxden (den cm cs) nfreq (i * nfreq)) with (M i). generalize (M i) (d i k). intros m e. split; [|split].
  - intros H. destruct (Rlt_dec (epsmax * m) e); [|contradiction]. unfold Rdiv. f_equal; ring.
  - intros H N. destruct (Rlt_dec (epsmax * m) e); [lra|]. destruct (Rlt_dec e (epsmax * m)); [|contradiction]. destruct (Req_EM_T e 0); [contradiction|]. unfold Rdiv. f_equal; ring.
  - intros H N. destruct (Rlt_dec (epsmax * m) e); [contradiction|]. destruct (Rlt_dec e (epsmax * m)), (Req_EM_T e 0); try contradiction; f_equal; ring.
Qed.
Print Assumptions C93_coherence.
(** At the cut-off the factor of the sample before is used, for the first one an uninitialised variable. *)
Theorem C93_cutoff_refuted scl0 reps epsmax : (0 < epsmax < 1)%R -> coherence scl0 (fun _ => (1, 0)%R) (fun a => if a =? 0 then (epsmax, 0)%R else (1, 0)%R) 2 1 reps epsmax 0 = (epsmax * scl0, 0)%R.
Proof.
  intros H. unfold coherence. change (range 0 1) with [0]. change (range 0 2) with [0; 1]. cbn [fold_left]. unfold upd. cbn [fst].
  assert (D0 : den (fun _ => (1, 0)%R) (fun a => if a =? 0 then (epsmax, 0)%R else (1, 0)%R) (0 * 2 + 0) = epsmax).
  { unfold den. cbn. replace (1 * 1 + 0 * 0)%R with 1%R by ring. replace (epsmax * epsmax + 0 * 0)%R with (epsmax * epsmax)%R by ring. rewrite sqrt_1, sqrt_square by lra. ring. }
  assert (D1 : den (fun _ => (1, 0)%R) (fun a => if a =? 0 then (epsmax, 0)%R else (1, 0)%R) (0 * 2 + 1) = 1%R).
  { unfold den. cbn. replace (1 * 1 + 0 * 0)%R with 1%R by ring. rewrite sqrt_1. ring. }
  assert (Mx : maxden (den (fun _ => (1, 0)%R) (fun a => if a =? 0 then (epsmax, 0)%R else (1, 0)%R)) 2 (0 * 2) = 1%R).
  { unfold maxden. change (range 0 2) with [0; 1]. cbn [fold_left]. rewrite D0, D1. unfold Rmax. repeat destruct (Rle_dec _ _); lra. }
  assert (Fc : factor reps epsmax 1 epsmax scl0 = scl0) by (unfold factor; destruct (Rlt_dec (epsmax * 1) epsmax); [lra|]; destruct (Rlt_dec epsmax (epsmax * 1)); [lra|]; destruct (Req_EM_T epsmax 0); [lra|reflexivity]).
  cbv zeta. rewrite Mx, D0, Fc.
  cbn.
  apply pair_equal_spec. split; ring.
Qed.
Print Assumptions C93_cutoff_refuted.

(** ** the sum over the sources *)
Lemma Sum_snoc n f : 0 <= n -> Sum (n + 1) f = (Sum n f + f n)%R.
Proof. intros H. unfold Sum. replace (Z.to_nat (n + 1)) with (S (Z.to_nat n)) by lia. cbn [sum]. now rewrite Z2Nat.id by lia. Qed.
Lemma stack_loop (nfreq nsrc : Z) (q : Z -> R * R) (s : Z -> R) : 0 <= nsrc -> forall k,
  fold_left (fun c js => fold_left (fun c k => upd c k (fst (c k) + fst (q (js * nfreq + k)%Z) * s js, snd (c k) + snd (q (js * nfreq + k)%Z) * s js)%R) (range 0 nfreq) c) (range 0 nsrc) (fun _ => (0, 0)%R) k =
  if (0 <=? k) && (k <? nfreq) then (Sum nsrc (fun i => s i * fst (q (i * nfreq + k)%Z))%R, Sum nsrc (fun i => s i * snd (q (i * nfreq + k)%Z))%R) else (0, 0)%R.
Proof.
  revert nsrc. refine (natlike_ind _ _ _).
  - intros k. rewrite (range_nil 0 0) by lia. cbn. destruct ((0 <=? k) && (k <? nfreq)); reflexivity.
  - intros n Hn IH k. unfold Z.succ. rewrite range_snoc by lia. rewrite fold_left_app. cbn [fold_left].
    pose proof (own_row (fun j (b : R * R) => (fst b + fst (q (n * nfreq + j)%Z) * s n, snd b + snd (q (n * nfreq + j)%Z) * s n)%R) 0 nfreq (fold_left (fun c js => fold_left (fun c k => upd c k (fst (c k) + fst (q (js * nfreq + k)%Z) * s js, snd (c k) + snd (q (js * nfreq + k)%Z) * s js)%R) (range 0 nfreq) c) (range 0 n) (fun _ => (0, 0)%R)) k) as O. cbn [Z.add] in O.
    etransitivity; [exact O|]. rewrite Z.sub_0_r, IH. destruct ((0 <=? k) && (k <? nfreq)); [|reflexivity]. cbn [fst snd]. rewrite !Sum_snoc by lia. f_equal; ring.
Qed.
(** C93: every correlated trace is divided by the norm of its spectrum if normsrc=1. *)
Theorem C93_stack normsrc nfreq nsrc q k : 0 <= nsrc -> 0 <= nfreq ->
  let norm i := sqrt (Sum nfreq (fun k => energy (q (i * nfreq + k)))) in let s i := if normsrc =? 1 then (if Req_EM_T (norm i) 0 then 1 else / norm i)%R else 1%R in
  stack normsrc nfreq nsrc q k = if (0 <=? k) && (k <? nfreq) then (Sum nsrc (fun i => s i * fst (q (i * nfreq + k)%Z))%R, Sum nsrc (fun i => s i * snd (q (i * nfreq + k)%Z))%R) else (0, 0)%R.
Proof.
  intros Hn Hf norm s. assert (S : forall i, source_scale normsrc nfreq i q = s i).
  { intros i. unfold source_scale, s. destruct (normsrc =? 1); [|reflexivity]. cbv zeta. rewrite (fold_sum (fun k => fst (q (i * nfreq + k)%Z) * fst (q (i * nfreq + k)%Z) + snd (q (i * nfreq + k)%Z) * snd (q (i * nfreq + k)%Z))%R nfreq 0%R Hf), Rplus_0_l.
    unfold norm, energy. set (E := Sum nfreq _). assert (P : (0 <= E)%R).
    { unfold E, Sum. generalize (Z.to_nat nfreq). intros m. induction m as [|m IH]; cbn [sum]; [lra|]. pose proof (Rle_0_sqr (fst (q (i * nfreq + Z.of_nat m)))) as A. pose proof (Rle_0_sqr (snd (q (i * nfreq + Z.of_nat m)))) as B. unfold Rsqr in A, B. lra. }
    destruct (Rlt_dec 0 E) as [L|L], (Req_EM_T (sqrt E) 0) as [Z|Z]; try reflexivity.
    - exfalso. pose proof (sqrt_lt_R0 E L). lra.
    - unfold Rdiv. ring.
    - exfalso. apply Z. replace E with 0%R by lra. apply sqrt_0. }
  unfold stack. cbv zeta. rewrite (PropertiesDft.fold_left_ext _ (fun c js => fold_left (fun c k => upd c k (fst (c k) + fst (q (js * nfreq + k)%Z) * s js, snd (c k) + snd (q (js * nfreq + k)%Z) * s js)%R) (range 0 nfreq) c)) by (intros a b _; now rewrite S).
  apply stack_loop. exact Hn.
Qed.
Print Assumptions C93_stack.

(** ** the virtual trace *)
Lemma write_loop1 (w : Z -> Z) (v : Z -> R) l : forall m, NoDup l -> (forall i j, w i = w j -> i = j) -> forall i, In i l -> fold_left (fun m i => upd m (w i) (v i)) l m (w i) = v i.
Proof.
  intros m ND W i Hi. destruct (PropertiesFreeSurface.write_loop (fun _ => true) w v l m ND ltac:(intros; now apply W)) as [A _]. exact (A i Hi).
Qed.
Lemma output_ok causal n nt scl r v j : 1 <= causal <= 4 -> 0 <= j < nt -> 2 * nt <= n ->
  output causal n nt scl r v j = (scl * if causal =? 1 then r j else if causal =? 2 then r ((- j) mod n) else if causal =? 3 then r ((j - nt / 2) mod n) else (r ((- j) mod n) + r j) / 2)%R.
Proof.
  intros Hc Hj Hn. assert (M0 : (- 0) mod n = 0) by (rewrite Z.mod_small; lia). assert (Mj : forall k, 1 <= k < n -> (- k) mod n = n - k) by (intros k Hk; rewrite <- (Z.mod_add (- k) 1 n) by lia; rewrite Z.mod_small; lia).
  assert (Hh : 0 <= nt / 2 <= nt) by (split; [apply Z.div_pos; lia|apply Z.div_le_upper_bound; lia]). unfold output.
  destruct (Z.eqb_spec causal 1); [rewrite (fold_write (fun j => r j * scl)%R); destruct (Z.leb_spec 0 j), (Z.ltb_spec j nt); try lia; cbn [andb]; ring|].
  destruct (Z.eqb_spec causal 2).
  { pose proof (fold_row (fun j => r (n - j)%Z * scl)%R 0 1 nt (upd v 0 (r 0%Z * scl)%R) j) as F. cbn [Z.add] in F. rewrite F, Z.sub_0_r, upd_eq. destruct (Z.eq_dec j 0) as [->|N].
    - rewrite M0. cbn. ring.
    - rewrite Mj by lia. destruct (Z.leb_spec 1 j), (Z.ltb_spec j nt); try lia. cbn [andb]. ring. }
  destruct (Z.eqb_spec causal 3).
  { pose proof (fold_row (fun j => r (j - nt / 2)%Z * scl)%R 0 (nt / 2) nt (fold_left (fun v j => upd v (nt / 2 - j) (r (n - j)%Z * scl)%R) (range 1 (nt / 2 + 1)) v) j) as F. cbn [Z.add] in F. rewrite F, Z.sub_0_r. clear F.
    destruct (Z.leb_spec (nt / 2) j), (Z.ltb_spec j nt); try lia; cbn [andb].
    - rewrite Z.mod_small by lia. ring.
    - pose proof (write_loop1 (fun k => nt / 2 - k) (fun k => r (n - k)%Z * scl)%R (range 1 (nt / 2 + 1)) v (range_NoDup _ _) ltac:(intros; cbv beta in *; lia)) as W. cbv beta in W. replace j with (nt / 2 - (nt / 2 - j)) at 1 by ring. rewrite W by (apply in_range; lia).
      replace (j - nt / 2) with (- (nt / 2 - j)) by ring. rewrite Mj by lia. ring. }
  destruct (Z.eqb_spec causal 4); [|lia].
  pose proof (fold_row (fun j => / 2 * (r (n - j)%Z + r j) * scl)%R 0 1 nt (upd v 0 (r 0%Z * scl)%R) j) as F. cbn [Z.add] in F. rewrite F, Z.sub_0_r, upd_eq. destruct (Z.eq_dec j 0) as [->|N].
  - rewrite M0. cbn. lra.
  - rewrite Mj by lia. destruct (Z.leb_spec 1 j), (Z.ltb_spec j nt); try lia. cbn [andb]. lra.
Qed.
Section VIRTUAL.
Variables (normalize causal nsrc_ctr n nt nfreq : Z) (reps epsmax scl0 : R) (data : Z -> Z -> R) (prs : list (Z * Z)) (v : Z -> R).
Hypothesis (Hnt : 1 <= nt) (Hn : 2 * nt <= n) (Hf : 1 <= nfreq <= n / 2 + 1) (Hc : 1 <= causal <= 4).
Let N : R := if normalize =? 0 then 1%R else if Nat.eqb (length prs) 0 then 1%R else INR (length prs).
Let A (p : Z * Z) (k : Z) := spectrum n (extended nt (data (fst p))) k.
Let B (p : Z * Z) (k : Z) := spectrum n (extended nt (data (snd p))) k.
Let V := virtual_trace false 0 normalize causal nsrc_ctr n nt nfreq reps epsmax scl0 data prs v.
Lemma Sum_list (f : Z * Z -> R) l : Sum (Z.of_nat (length l)) (fun i => f (nth (Z.to_nat i) l (0, 0))) = list_sum f l.
Proof.
  unfold Sum. rewrite Nat2Z.id. assert (G : forall k, (k <= length l)%nat -> sum k (fun i => f (nth (Z.to_nat i) l (0, 0))) = list_sum f (firstn k l)).
  { induction k as [|k IH]; intros Hk; [reflexivity|]. cbn [sum]. rewrite IH by lia. rewrite Nat2Z.id. clear IH. revert k Hk. induction l as [|h t IHl]; intros k Hk; [cbn in Hk; lia|]. destruct k as [|k]; [cbn; ring|]. cbn [firstn nth list_sum fold_right].
    cbn in Hk. specialize (IHl k ltac:(lia)). unfold list_sum in *. cbn [firstn fold_right] in *. rewrite <- IHl. ring. }
  rewrite G by lia. now rewrite firstn_all.
Qed.
Lemma prod_pair (p : Z * Z) k : cmul (FconvSpec.conjugate (A p k)) (B p k) = spectrum n (correlation n (extended nt (data (snd p))) (extended nt (data (fst p)))) k.
Proof. rewrite spectrum_correlation by lia. unfold A, B, FconvSpec.conjugate, FftAux.conj, KissFft.cmul. cbn [fst snd]. f_equal; ring. Qed.
(** C93: the spectrum of the virtual trace is the average over the pairs of conj(A) B up to nfreq and zero above it; the samples are those at the lags of the output. *)
Theorem C93_band : nsrc_ctr <= Z.of_nat (length prs) -> exists w : Z -> R,
  (forall k, 0 <= k <= n / 2 -> spectrum n w k = if k <? nfreq then (list_sum (fun p => fst (cmul (FconvSpec.conjugate (A p k)) (B p k))) prs / N, list_sum (fun p => snd (cmul (FconvSpec.conjugate (A p k)) (B p k))) prs / N)%R else (0, 0)%R) /\
  (forall j, 0 <= j < nt -> V j = if causal =? 1 then w j else if causal =? 2 then w ((- j) mod n) else if causal =? 3 then w ((j - nt / 2) mod n) else ((w ((- j) mod n) + w j) / 2)%R).
Proof.
  intros Hs. unfold V, virtual_trace. cbv zeta. destruct (Z.ltb_spec (Z.of_nat (length prs)) nsrc_ctr); [lia|]. set (cm := fun a : Z => spectrum n (extended nt (data (fst (nth (Z.to_nat (a / nfreq)) prs (0, 0))))) (a mod nfreq)).
  set (cs := fun a : Z => spectrum n (extended nt (data (snd (nth (Z.to_nat (a / nfreq)) prs (0, 0))))) (a mod nfreq)). set (q := correlate cm cs nfreq (Z.of_nat (length prs))). set (c := stack 0 nfreq (Z.of_nat (length prs)) q).
  set (s := if negb (normalize =? 0) && (0 <? Z.of_nat (length prs)) then (1 / IZR n / IZR (Z.of_nat (length prs)))%R else (1 / IZR n)%R).
  assert (Nn : IZR n <> 0%R) by (apply not_0_IZR; lia).
  assert (NN : N <> 0%R). { unfold N. destruct (normalize =? 0); [lra|]. destruct (Nat.eqb_spec (length prs) 0); [lra|]. apply not_0_INR. exact n0. }
  assert (S : s = (/ N * / IZR n)%R).
  { unfold s, N. destruct (normalize =? 0); cbn [negb andb]; [field; exact Nn|]. destruct (Nat.eqb_spec (length prs) 0) as [E|E]; [rewrite E; cbn; field; exact Nn|]. destruct (Z.ltb_spec 0 (Z.of_nat (length prs))); [|lia]. rewrite <- INR_IZR_INZ. assert (INR (length prs) <> 0%R) by (apply not_0_INR; exact E). field. split; assumption. }
  assert (Q : forall k, c k = if (0 <=? k) && (k <? nfreq) then (list_sum (fun p => fst (cmul (FconvSpec.conjugate (A p k)) (B p k))) prs, list_sum (fun p => snd (cmul (FconvSpec.conjugate (A p k)) (B p k))) prs) else (0, 0)%R).
  { intros k. unfold c. rewrite C93_stack by lia. cbv zeta. change (0 =? 1) with false. cbv iota. destruct ((0 <=? k) && (k <? nfreq)) eqn:E; [|reflexivity]. destruct (C93_correlate cm cs nfreq (Z.of_nat (length prs)) ltac:(lia)) as [K _].
    assert (D : forall i, (i * nfreq + k) / nfreq = i) by (intros i; rewrite Z.div_add_l by lia; rewrite Z.div_small by lia; ring). assert (Md : forall i, (i * nfreq + k) mod nfreq = k) by (intros i; rewrite Z.add_comm, Z.mod_add by lia; apply Z.mod_small; lia).
    assert (P : forall i, 0 <= i < Z.of_nat (length prs) -> q (i * nfreq + k) = cmul (FconvSpec.conjugate (A (nth (Z.to_nat i) prs (0, 0)) k)) (B (nth (Z.to_nat i) prs (0, 0)) k)).
    { intros i Hi. unfold q. rewrite K by lia. unfold cm, cs. rewrite D, Md. reflexivity. }
    f_equal; rewrite <- Sum_list; apply Sum_ext; intros i Hi; rewrite P by exact Hi; ring. }
  exists (fun t => (/ N * synth n c t)%R). split.
  - intros k Hk. assert (L : spectrum n (fun t => (/ N * synth n c t)%R) k = cmul (/ N, 0)%R (spectrum n (synth n c) k)).
    { transitivity (cadd (cmul (/ N, 0)%R (spectrum n (synth n c) k)) (cmul (0, 0)%R (spectrum n (synth n c) k))).
      - unfold spectrum. rewrite <- dft_lin. apply PropertiesFftLayout.dft_ext. intros i Hi. unfold real_values, KissFft.cadd, KissFft.cmul. cbn [fst snd]. f_equal; ring.
      - unfold KissFft.cadd, KissFft.cmul. cbn [fst snd]. f_equal; ring. }
    rewrite L, synth_spectrum by lia. rewrite Q. destruct (Z.leb_spec 0 k); [|lia]. cbn [andb].
    destruct (Z.ltb_spec k nfreq); [|destruct ((k =? 0) || (2 * k =? n)); unfold KissFft.cmul; cbn [fst snd]; f_equal; ring].
    destruct ((k =? 0) || (2 * k =? n)) eqn:E; [|unfold KissFft.cmul; cbn [fst snd]; unfold Rdiv; f_equal; ring].
    assert (R0 : forall l, list_sum (fun p => snd (cmul (FconvSpec.conjugate (A p k)) (B p k))) l = 0%R).
    { induction l as [|p l IH]; [reflexivity|]. cbn [list_sum fold_right]. unfold list_sum in IH. rewrite IH, prod_pair. destruct (spectrum_ends n ltac:(lia) (correlation n (extended nt (data (snd p))) (extended nt (data (fst p))))) as [E0 E2].
      apply orb_true_iff in E. destruct E as [E|E]; apply Z.eqb_eq in E.
      - subst k. rewrite E0. ring.
      - assert (n / 2 = k) as Hk2 by (rewrite <- E, Z.mul_comm; apply Z.div_mul; lia). rewrite Hk2 in E2. rewrite E2 by exact E. ring. }
    rewrite R0. unfold KissFft.cmul, Rdiv. cbn [fst snd]. f_equal; ring.
  - intros j Hj. rewrite output_ok by (try assumption; lia). rewrite S. unfold synth. destruct (causal =? 1); [ring|]. destruct (causal =? 2); [ring|]. destruct (causal =? 3); [ring|]. field. split; assumption.
Qed.
(** no wrap-around: the transform is at least twice as long as the traces *)
Lemma no_wrap a b t : - nt < t < nt -> correlation n (extended nt b) (extended nt a) (t mod n) = crosscorrelation nt a b t.
Proof.
  intros Ht. unfold correlation, crosscorrelation, true_correlation. rewrite (Sum_split nt n) by lia. rewrite (Sum_zero (n - nt)).
  - rewrite Rplus_0_r. apply Sum_ext. intros j Hj. rewrite Zplus_mod_idemp_r. unfold extended at 2. destruct (Z.ltb_spec j nt); [|lia]. f_equal. destruct (Z.leb_spec 0 (j + t)).
    + rewrite Z.mod_small by lia. reflexivity.
    + rewrite <- (Z.mod_add (j + t) 1 n) by lia. rewrite Z.mod_small by lia. unfold extended. destruct (Z.ltb_spec (j + t + 1 * n) nt); [lia|reflexivity].
  - intros i Hi. unfold extended at 2. destruct (Z.ltb_spec (nt + i) nt); [lia|ring].
Qed.
(** C93: with all frequencies the virtual trace is the average of the correlations of the pairs, at lag j, -j, j - nt/2 or the mean of both sides. *)
Theorem C93_virtual j : nfreq = n / 2 + 1 -> nsrc_ctr <= Z.of_nat (length prs) -> 0 <= j < nt ->
  let X (lag : Z) := (list_sum (fun p => crosscorrelation nt (data (fst p)) (data (snd p)) lag) prs / N)%R in
  V j = if causal =? 1 then X j else if causal =? 2 then X (- j) else if causal =? 3 then X (j - nt / 2) else ((X (- j)%Z + X j) / 2)%R.
Proof.
  intros Ef Hs Hj X. destruct C93_band as (w & W1 & W2); [exact Hs|]. assert (Hh : 0 <= nt / 2 < nt) by (split; [apply Z.div_pos; lia|apply Z.div_lt_upper_bound; lia]).
  assert (E : forall t, - nt < t < nt -> w (t mod n) = X t).
  { intros t Ht. set (u := fun t => (list_sum (fun p => correlation n (extended nt (data (snd p))) (extended nt (data (fst p))) t) prs / N)%R).
    transitivity (u (t mod n)).
    - apply (spectrum_inj n w u); [lia| |apply Z.mod_pos_bound; lia]. intros k Hk. rewrite W1 by exact Hk. destruct (Z.ltb_spec k nfreq); [|lia].
      assert (L : forall l, spectrum n (fun t => (list_sum (fun p => correlation n (extended nt (data (snd p))) (extended nt (data (fst p))) t) l / N)%R) k = (list_sum (fun p => fst (cmul (FconvSpec.conjugate (A p k)) (B p k))) l / N, list_sum (fun p => snd (cmul (FconvSpec.conjugate (A p k)) (B p k))) l / N)%R).
      { induction l as [|p l IH].
        - cbn [list_sum fold_right]. unfold spectrum, dft. rewrite total_zero; [unfold list_sum, Rdiv; cbn; unfold c0; f_equal; ring|]. intros i Hi. unfold times, real_values, list_sum, Rdiv. cbn [fst snd fold_right]. unfold c0. f_equal; ring.
        - transitivity (cadd (cmul (/ N, 0)%R (spectrum n (correlation n (extended nt (data (snd p))) (extended nt (data (fst p)))) k)) (cmul (1, 0)%R (spectrum n (fun t => (list_sum (fun p => correlation n (extended nt (data (snd p))) (extended nt (data (fst p))) t) l / N)%R) k))).
          + unfold spectrum. rewrite <- dft_lin. apply PropertiesFftLayout.dft_ext. intros i Hi. unfold real_values, KissFft.cadd, KissFft.cmul, list_sum, Rdiv. cbn [fst snd fold_right]. f_equal; ring.
          + rewrite IH, <- prod_pair. cbn [list_sum fold_right]. unfold list_sum. repeat match goal with |- context [fold_right ?f 0%R l] => generalize (fold_right f 0%R l); intro end.
            generalize (cmul (FconvSpec.conjugate (A p k)) (B p k)). intros [P1 P2]. unfold KissFft.cadd, KissFft.cmul, Rdiv. cbn [fst snd].
            f_equal; ring. }
      symmetry. apply L.
    - unfold u, X. f_equal. assert (G : forall l, list_sum (fun p => correlation n (extended nt (data (snd p))) (extended nt (data (fst p))) (t mod n)) l = list_sum (fun p => crosscorrelation nt (data (fst p)) (data (snd p)) t) l).
      { unfold list_sum. induction l as [|p l IH]; [reflexivity|]. cbn [fold_right]. rewrite no_wrap by exact Ht. f_equal. exact IH. }
      apply G. }
  rewrite W2 by exact Hj. rewrite !E by lia. replace (w j) with (X j) by (rewrite <- E by lia; now rewrite Z.mod_small by lia). reflexivity.
Qed.
(** too few sources: the trace is zero *)
Theorem C93_few_sources j : Z.of_nat (length prs) < nsrc_ctr -> 0 <= j < nt -> V j = 0%R.
Proof.
  intros Hs Hj. unfold V, virtual_trace. cbv zeta. destruct (Z.ltb_spec (Z.of_nat (length prs)) nsrc_ctr); [|lia].
  rewrite output_ok by (try assumption; lia). unfold stack. rewrite (range_nil 0 (-1)) by lia. cbn [fold_left].
  assert (Z0 : forall t, fst (dft n 1 (hermitian n (fun _ => (0, 0)%R)) t) = 0%R).
  { intros t. unfold dft. rewrite total_zero; [reflexivity|]. intros i Hi. assert (H0 : hermitian n (fun _ => (0, 0)%R) i = (0, 0)%R) by (unfold hermitian; cbn [fst snd]; rewrite Ropp_0; destruct (i =? 0), (2 * i <? n), (2 * i =? n); reflexivity). rewrite H0. unfold times, c0. cbn [fst snd]. f_equal; ring. }
  rewrite !Z0. destruct (causal =? 1), (causal =? 2), (causal =? 3); lra.
Qed.
End VIRTUAL.
Print Assumptions C93_band.
Print Assumptions C93_virtual.
Print Assumptions C93_few_sources.
(** a concrete case: two pairs of traces of two samples *)
Example C93_nonvacuous : virtual_trace false 0 1 1 1 4 2 3 0 0 0 (fun f t => IZR (f + t)) [(1, 2); (1, 3)] (fun _ => 0%R) 1 = (7 / 2)%R.
Proof.
  rewrite (C93_virtual 1 1 1 4 2 3 0 0 0 (fun f t => IZR (f + t)) [(1, 2); (1, 3)] (fun _ => 0%R)); try (cbn; lia).
  assert (S2 : forall f, Sum 2 f = (f 0%Z + f 1%Z)%R) by (intros f; unfold Sum; change (Z.to_nat 2) with 2%nat; cbn; ring).
  unfold crosscorrelation, true_correlation, list_sum. cbn [fold_right fst snd]. rewrite !S2. unfold extended. cbn. lra.
Qed.
