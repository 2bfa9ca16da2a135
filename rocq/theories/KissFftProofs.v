(** Proofs about kiss_fft.c. *)
From Coq Require Import ZArith Reals List Lia Lra Ring Bool.
From Verif Require Import FdKernels FdProofs FdOutputProofs Marchenko MarchenkoProofs KissFft FftSpec FftAux.
Import ListNotations.
Local Open Scope Z_scope.

(** a loop over the columns u, u+m, ..., u+(p-1)*m of a p*m block *)
Section Columns.
Variables (Fout m p : Z) (body : (Z -> C) -> Z -> (Z -> C)) (G : Z -> (Z -> C) -> Z -> C).
Definition cell (q u : Z) : Z := Fout + (q * m + u).
Definition column_body : Prop :=
  (forall mem u x, 0 <= u < m -> (forall q, 0 <= q < p -> x <> cell q u) -> body mem u x = mem x) /\
  (forall mem u q, 0 <= u < m -> 0 <= q < p -> body mem u (cell q u) = G u (fun q => mem (cell q u)) q).
Lemma columns : 0 < m -> column_body -> (forall u c c' q, (forall q, 0 <= q < p -> c q = c' q) -> G u c q = G u c' q) ->
  forall mem, let r := fold_left body (range 0 m) mem in
  (forall u q, 0 <= u < m -> 0 <= q < p -> r (cell q u) = G u (fun q => mem (cell q u)) q) /\
  (forall x, (forall k, 0 <= k < p * m -> x <> Fout + k) -> r x = mem x).
Proof.
  intros Hm [B1 B2] HG mem.
  assert (A : forall j, 0 <= j -> j <= m -> let r := fold_left body (range 0 j) mem in
    (forall u q, 0 <= u < m -> 0 <= q < p -> r (cell q u) = if u <? j then G u (fun q => mem (cell q u)) q else mem (cell q u)) /\
    (forall x, (forall k, 0 <= k < p * m -> x <> Fout + k) -> r x = mem x)).
  { refine (natlike_ind _ _ _).
    - intros _. rewrite range_nil by lia. cbn [fold_left]. split; [|auto]. intros u q Hu Hq. destruct (Z.ltb_spec u 0); [lia|reflexivity].
    - intros j Hj IH Hjm. cbv zeta. unfold Z.succ in *. rewrite range_snoc, fold_left_app by lia. cbn [fold_left]. specialize (IH ltac:(lia)). cbv zeta in IH. destruct IH as [IH1 IH2].
      set (r := fold_left body (range 0 j) mem) in *. split.
      + intros u q Hu Hq. destruct (Z.eq_dec u j) as [-> |Nu].
        * rewrite B2 by lia. destruct (Z.ltb_spec j (j + 1)); [|lia]. apply HG. intros q' Hq'. rewrite IH1 by lia. destruct (Z.ltb_spec j j); [lia|reflexivity].
        * rewrite B1; [|lia|].
          -- rewrite IH1 by lia. destruct (Z.ltb_spec u j), (Z.ltb_spec u (j + 1)); try reflexivity; lia.
          -- intros q' Hq' E. unfold cell in E. assert (q * m + u = q' * m + j) by lia. assert (q = q') by nia. nia.
      + intros x Hx. rewrite B1; [now apply IH2|lia|]. intros q Hq. apply Hx. nia. }
  destruct (A m ltac:(lia) ltac:(lia)) as [A1 A2]. split; [|exact A2]. intros u q Hu Hq. rewrite A1 by assumption. destruct (Z.ltb_spec u m); [reflexivity|lia].
Qed.
End Columns.

Section Work.
Variables (N s : Z).
Hypothesis Hs : s = 1 \/ s = -1.
Hypothesis HN : 0 < N.
Variable tw : Z -> C.
Hypothesis Htw : forall i, 0 <= i < N -> tw i = root N s i.
Notation W := (root N s).
(** the combination of p transforms of length m *)
Definition combined (fstride m p u : Z) (c : Z -> C) (q : Z) : C := total (Z.to_nat p) (fun j => cmul (c j) (W (fstride * j * (q * m + u)))).
Lemma combined_ext fstride m p u c c' q : (forall j, 0 <= j < p -> c j = c' j) -> combined fstride m p u c q = combined fstride m p u c' q.
Proof. intros H. apply total_ext. intros i Hi. now rewrite H by lia. Qed.

Ltac offs := match goal with |- context [(?a =? ?b)] => destruct (Z.eqb_spec a b); try (exfalso; unfold cell in *; nia) end.
Lemma upd_same {V} (mem : Z -> V) a v : upd mem a v a = v.
Proof. unfold upd. now rewrite Z.eqb_refl. Qed.
Lemma upd_other {V} (mem : Z -> V) a v x : x <> a -> upd mem a v x = mem x.
Proof. intros H. unfold upd. destruct (Z.eqb_spec x a); [contradiction|reflexivity]. Qed.
Ltac reads := repeat first [rewrite upd_same | rewrite upd_other by (unfold cell; lia)].
Ltac other H := repeat (rewrite upd_other by (first [apply (fun q => H q) | idtac]; fail)).
Lemma W_add i j : W (i + j) = cmul (W i) (W j).
Proof. now apply root_add. Qed.
Lemma W_mult k : W (N * k) = c1.
Proof. apply root_mult; [exact Hs|lia]. Qed.

Lemma bfly2_ok Fout fstride m : 0 < fstride -> 0 < m -> fstride * (2 * m) = N -> column_body Fout m 2 (kf_bfly2 Fout fstride m tw) (combined fstride m 2).
Proof.
  intros Hf Hm E. split.
  - intros mem u x Hu Hx. pose proof (Hx 0 ltac:(lia)). pose proof (Hx 1 ltac:(lia)). unfold kf_bfly2. cbv zeta. unfold cell in *. rewrite !upd_other by lia. reflexivity.
  - intros mem u q Hu Hq. unfold kf_bfly2. cbv zeta. rewrite Htw by nia. unfold combined. change (Z.to_nat 2) with 2%nat. cbn [total Z.of_nat Pos.of_succ_nat Pos.succ]. change plus with cadd. change (0, 0)%R with c0.
    rewrite Z.mul_0_r, Z.mul_0_l, root_0. assert (H2 : W (fstride * m) = copp c1) by (apply root_half; [lia|nia]).
    assert (q = 0 \/ q = 1) as [-> | ->] by lia; unfold cell.
    + replace (Fout + (0 * m + u)) with (Fout + u) by lia. reads. replace (fstride * 1 * (0 * m + u)) with (u * fstride) by lia. replace (Fout + (1 * m + u)) with (Fout + m + u) by lia. reads. ring.
    + replace (Fout + (0 * m + u)) with (Fout + u) by lia. replace (Fout + (1 * m + u)) with (Fout + m + u) by lia. rewrite upd_other by lia. reads.
      replace (fstride * 1 * (1 * m + u)) with (u * fstride + fstride * m) by lia. rewrite W_add, H2. ring.
Qed.
Lemma W_conj i j : i + j = N -> W j = conj (W i).
Proof. intros E. replace j with (N * 1 + - i) by lia. rewrite W_add, W_mult, root_opp. ring. Qed.
Lemma bfly3_ok Fout fstride m : 0 < fstride -> 0 < m -> fstride * (3 * m) = N -> column_body Fout m 3 (kf_bfly3 Fout fstride m tw) (combined fstride m 3).
Proof.
  intros Hf Hm E. split.
  - intros mem u x Hu Hx. pose proof (Hx 0 ltac:(lia)). pose proof (Hx 1 ltac:(lia)). pose proof (Hx 2 ltac:(lia)). unfold kf_bfly3. cbv zeta. unfold cell in *. rewrite !upd_other by lia. reflexivity.
  - intros mem u q Hu Hq. unfold kf_bfly3. cbv zeta. rewrite !Htw by nia. unfold combined. change (Z.to_nat 3) with 3%nat. cbn [total Z.of_nat Pos.of_succ_nat Pos.succ]. change plus with cadd. change (0, 0)%R with c0.
    rewrite Z.mul_0_r, Z.mul_0_l, root_0. assert (T : fst (W (fstride * m)) = (- / 2)%R) by (apply root_third; [lia|nia]). pose proof (W_conj (fstride * m) (fstride * (2 * m)) ltac:(nia)) as T2.
    unfold cell. replace (Fout + (0 * m + u)) with (Fout + u) by lia. replace (Fout + (1 * m + u)) with (Fout + m + u) by lia.  replace (Fout + (2 * m + u)) with (Fout + 2 * m + u) by lia.
    replace (u * (fstride * 2)) with (fstride * 2 * u) by lia.
    assert (q = 0 \/ q = 1 \/ q = 2) as [-> | [-> | ->]] by lia.
    + replace (Fout + (0 * m + u)) with (Fout + u) by lia. reads. replace (fstride * 1 * (0 * m + u)) with (u * fstride) by lia. replace (fstride * 2 * (0 * m + u)) with (fstride * 2 * u) by lia. ring.
    + replace (Fout + (1 * m + u)) with (Fout + m + u) by lia. reads.
      replace (fstride * 1 * (1 * m + u)) with (u * fstride + fstride * m) by lia. replace (fstride * 2 * (1 * m + u)) with (fstride * 2 * u + fstride * (2 * m)) by lia. rewrite !W_add, T2.
      destruct (W (fstride * m)) as [er ei]. cbn [fst] in T. subst er.
      generalize (W (u * fstride)) (W (fstride * 2 * u)) (mem (Fout + u)) (mem (Fout + m + u)) (mem (Fout + 2 * m + u)). intros w1 w2 a b d. cring.
    + replace (Fout + (2 * m + u)) with (Fout + 2 * m + u) by lia. reads.
      replace (fstride * 1 * (2 * m + u)) with (u * fstride + fstride * (2 * m)) by lia. replace (fstride * 2 * (2 * m + u)) with (fstride * 2 * u + (fstride * m + N * 1)) by lia. rewrite !W_add, W_mult, T2.
      destruct (W (fstride * m)) as [er ei]. cbn [fst] in T. subst er.
      generalize (W (u * fstride)) (W (fstride * 2 * u)) (mem (Fout + u)) (mem (Fout + m + u)) (mem (Fout + 2 * m + u)). intros w1 w2 a b d. cring.
Qed.
Lemma bfly4_ok Fout fstride m : 0 < fstride -> 0 < m -> fstride * (4 * m) = N -> column_body Fout m 4 (kf_bfly4 Fout fstride m tw (s =? 1)) (combined fstride m 4).
Proof.
  intros Hf Hm E. split.
  - intros mem u x Hu Hx. pose proof (Hx 0 ltac:(lia)). pose proof (Hx 1 ltac:(lia)). pose proof (Hx 2 ltac:(lia)). pose proof (Hx 3 ltac:(lia)). unfold kf_bfly4. cbv zeta. unfold cell in *. destruct (s =? 1); rewrite !upd_other by lia; reflexivity.
  - intros mem u q Hu Hq. unfold kf_bfly4. cbv zeta. rewrite !Htw by nia. unfold combined. change (Z.to_nat 4) with 4%nat. cbn [total Z.of_nat Pos.of_succ_nat Pos.succ]. change plus with cadd. change (0, 0)%R with c0.
    rewrite Z.mul_0_r, Z.mul_0_l, root_0. assert (T1 : W (fstride * m) = (0, IZR s)%R) by (apply root_quarter; [lia|nia]). assert (T2 : W (fstride * (2 * m)) = copp c1) by (apply root_half; [lia|nia]).
    assert (T3 : W (fstride * (3 * m)) = (0, - IZR s)%R) by (rewrite (W_conj (fstride * m)) by nia; now rewrite T1).
    unfold cell. replace (Fout + (0 * m + u)) with (Fout + u) by lia. replace (Fout + (1 * m + u)) with (Fout + m + u) by lia.  replace (Fout + (2 * m + u)) with (Fout + 2 * m + u) by lia. replace (Fout + (3 * m + u)) with (Fout + 3 * m + u) by lia.
    replace (u * (fstride * 2)) with (fstride * 2 * u) by lia. replace (u * (fstride * 3)) with (fstride * 3 * u) by lia.
    assert (q = 0 \/ q = 1 \/ q = 2 \/ q = 3) as [-> | [-> | [-> | ->]]] by lia.
    + replace (Fout + (0 * m + u)) with (Fout + u) by lia. replace (fstride * 1 * (0 * m + u)) with (u * fstride) by lia. replace (fstride * 2 * (0 * m + u)) with (fstride * 2 * u) by lia. replace (fstride * 3 * (0 * m + u)) with (fstride * 3 * u) by lia.
      destruct (s =? 1); reads; ring.
    + replace (Fout + (1 * m + u)) with (Fout + m + u) by lia.
      replace (fstride * 1 * (1 * m + u)) with (u * fstride + fstride * m) by lia. replace (fstride * 2 * (1 * m + u)) with (fstride * 2 * u + fstride * (2 * m)) by lia. replace (fstride * 3 * (1 * m + u)) with (fstride * 3 * u + fstride * (3 * m)) by lia.
      rewrite !W_add, T1, T2, T3. clear T1 T2 T3.
      destruct Hs as [Es|Es]; rewrite Es; cbn [Z.eqb Pos.eqb]; reads; rewrite <- Es;
      generalize (W (u * fstride)) (W (fstride * 2 * u)) (W (fstride * 3 * u)) (mem (Fout + u)) (mem (Fout + m + u)) (mem (Fout + 2 * m + u)) (mem (Fout + 3 * m + u)); intros; rewrite Es; cring.
    + replace (Fout + (2 * m + u)) with (Fout + 2 * m + u) by lia.
      replace (fstride * 1 * (2 * m + u)) with (u * fstride + fstride * (2 * m)) by lia. replace (fstride * 2 * (2 * m + u)) with (fstride * 2 * u + N * 1) by lia. replace (fstride * 3 * (2 * m + u)) with (fstride * 3 * u + (fstride * (2 * m) + N * 1)) by lia.
      rewrite !W_add, !W_mult, T2. clear T1 T2 T3.
      destruct Hs as [Es|Es]; rewrite Es; cbn [Z.eqb Pos.eqb]; reads; rewrite <- Es;
      generalize (W (u * fstride)) (W (fstride * 2 * u)) (W (fstride * 3 * u)) (mem (Fout + u)) (mem (Fout + m + u)) (mem (Fout + 2 * m + u)) (mem (Fout + 3 * m + u)); intros; ring.
    + replace (Fout + (3 * m + u)) with (Fout + 3 * m + u) by lia.
      replace (fstride * 1 * (3 * m + u)) with (u * fstride + fstride * (3 * m)) by lia. replace (fstride * 2 * (3 * m + u)) with (fstride * 2 * u + (fstride * (2 * m) + N * 1)) by lia. replace (fstride * 3 * (3 * m + u)) with (fstride * 3 * u + (fstride * m + N * 2)) by lia.
      rewrite !W_add, !W_mult, T1, T2, T3. clear T1 T2 T3.
      destruct Hs as [Es|Es]; rewrite Es; cbn [Z.eqb Pos.eqb]; reads; rewrite <- Es;
      generalize (W (u * fstride)) (W (fstride * 2 * u)) (W (fstride * 3 * u)) (mem (Fout + u)) (mem (Fout + m + u)) (mem (Fout + 2 * m + u)) (mem (Fout + 3 * m + u)); intros; rewrite Es; cring.
Qed.
Lemma bfly5_ok Fout fstride m : 0 < fstride -> 0 < m -> fstride * (5 * m) = N -> column_body Fout m 5 (kf_bfly5 Fout fstride m tw) (combined fstride m 5).
Proof.
  intros Hf Hm E. split.
  - intros mem u x Hu Hx. pose proof (Hx 0 ltac:(lia)). pose proof (Hx 1 ltac:(lia)). pose proof (Hx 2 ltac:(lia)). pose proof (Hx 3 ltac:(lia)). pose proof (Hx 4 ltac:(lia)). unfold kf_bfly5. cbv zeta. unfold cell in *. rewrite !upd_other by lia; reflexivity.
  - intros mem u q Hu Hq. unfold kf_bfly5. cbv zeta. rewrite !Htw by nia. unfold combined. change (Z.to_nat 5) with 5%nat. cbn [total Z.of_nat Pos.of_succ_nat Pos.succ]. change plus with cadd. change (0, 0)%R with c0.
    rewrite Z.mul_0_r, Z.mul_0_l, root_0. replace (fstride * 2 * m) with (fstride * (2 * m)) by lia.
    pose proof (W_conj (fstride * (2 * m)) (fstride * (3 * m)) ltac:(nia)) as T3. pose proof (W_conj (fstride * m) (fstride * (4 * m)) ltac:(nia)) as T4.
    unfold cell. replace (Fout + (0 * m + u)) with (Fout + u) by lia. replace (Fout + (1 * m + u)) with (Fout + m + u) by lia. replace (Fout + (2 * m + u)) with (Fout + 2 * m + u) by lia. replace (Fout + (3 * m + u)) with (Fout + 3 * m + u) by lia. replace (Fout + (4 * m + u)) with (Fout + 4 * m + u) by lia.
    assert (q = 0 \/ q = 1 \/ q = 2 \/ q = 3 \/ q = 4) as [-> | [-> | [-> | [-> | ->]]]] by lia.
    + replace (Fout + (0 * m + u)) with (Fout + u) by lia. replace (fstride * 1 * (0 * m + u)) with (u * fstride) by lia. replace (fstride * 2 * (0 * m + u)) with (2 * u * fstride) by lia. replace (fstride * 3 * (0 * m + u)) with (3 * u * fstride) by lia. replace (fstride * 4 * (0 * m + u)) with (4 * u * fstride) by lia.
      reads. clear T3 T4. generalize (W (u * fstride)) (W (2 * u * fstride)) (W (3 * u * fstride)) (W (4 * u * fstride)) (mem (Fout + u)) (mem (Fout + m + u)) (mem (Fout + 2 * m + u)) (mem (Fout + 3 * m + u)) (mem (Fout + 4 * m + u)). intros. cring.
    + replace (Fout + (1 * m + u)) with (Fout + m + u) by lia. replace (fstride * 1 * (1 * m + u)) with (u * fstride + fstride * m) by lia. replace (fstride * 2 * (1 * m + u)) with (2 * u * fstride + fstride * (2 * m)) by lia. replace (fstride * 3 * (1 * m + u)) with (3 * u * fstride + fstride * (3 * m)) by lia. replace (fstride * 4 * (1 * m + u)) with (4 * u * fstride + fstride * (4 * m)) by lia.
      reads. rewrite !W_add, ?W_mult, T3, T4. clear T3 T4. generalize (W (fstride * m)) (W (fstride * (2 * m))) (W (u * fstride)) (W (2 * u * fstride)) (W (3 * u * fstride)) (W (4 * u * fstride)) (mem (Fout + u)) (mem (Fout + m + u)) (mem (Fout + 2 * m + u)) (mem (Fout + 3 * m + u)) (mem (Fout + 4 * m + u)). intros. cring.
    + replace (Fout + (2 * m + u)) with (Fout + 2 * m + u) by lia. replace (fstride * 1 * (2 * m + u)) with (u * fstride + fstride * (2 * m)) by lia. replace (fstride * 2 * (2 * m + u)) with (2 * u * fstride + fstride * (4 * m)) by lia. replace (fstride * 3 * (2 * m + u)) with (3 * u * fstride + (fstride * m + N * 1)) by lia. replace (fstride * 4 * (2 * m + u)) with (4 * u * fstride + (fstride * (3 * m) + N * 1)) by lia.
      reads. rewrite !W_add, ?W_mult, T3, T4. clear T3 T4. generalize (W (fstride * m)) (W (fstride * (2 * m))) (W (u * fstride)) (W (2 * u * fstride)) (W (3 * u * fstride)) (W (4 * u * fstride)) (mem (Fout + u)) (mem (Fout + m + u)) (mem (Fout + 2 * m + u)) (mem (Fout + 3 * m + u)) (mem (Fout + 4 * m + u)). intros. cring.
    + replace (Fout + (3 * m + u)) with (Fout + 3 * m + u) by lia. replace (fstride * 1 * (3 * m + u)) with (u * fstride + fstride * (3 * m)) by lia. replace (fstride * 2 * (3 * m + u)) with (2 * u * fstride + (fstride * m + N * 1)) by lia. replace (fstride * 3 * (3 * m + u)) with (3 * u * fstride + (fstride * (4 * m) + N * 1)) by lia. replace (fstride * 4 * (3 * m + u)) with (4 * u * fstride + (fstride * (2 * m) + N * 2)) by lia.
      reads. rewrite !W_add, ?W_mult, T3, T4. clear T3 T4. generalize (W (fstride * m)) (W (fstride * (2 * m))) (W (u * fstride)) (W (2 * u * fstride)) (W (3 * u * fstride)) (W (4 * u * fstride)) (mem (Fout + u)) (mem (Fout + m + u)) (mem (Fout + 2 * m + u)) (mem (Fout + 3 * m + u)) (mem (Fout + 4 * m + u)). intros. cring.
    + replace (Fout + (4 * m + u)) with (Fout + 4 * m + u) by lia. replace (fstride * 1 * (4 * m + u)) with (u * fstride + fstride * (4 * m)) by lia. replace (fstride * 2 * (4 * m + u)) with (2 * u * fstride + (fstride * (3 * m) + N * 1)) by lia. replace (fstride * 3 * (4 * m + u)) with (3 * u * fstride + (fstride * (2 * m) + N * 2)) by lia. replace (fstride * 4 * (4 * m + u)) with (4 * u * fstride + (fstride * m + N * 3)) by lia.
      reads. rewrite !W_add, ?W_mult, T3, T4. clear T3 T4. generalize (W (fstride * m)) (W (fstride * (2 * m))) (W (u * fstride)) (W (2 * u * fstride)) (W (3 * u * fstride)) (W (4 * u * fstride)) (mem (Fout + u)) (mem (Fout + m + u)) (mem (Fout + 2 * m + u)) (mem (Fout + 3 * m + u)) (mem (Fout + 4 * m + u)). intros. cring.
Qed.
(** the sum of the generic butterfly *)
Lemma total_shift n f : (0 < n)%nat -> total n f = cadd (f 0) (total (n - 1) (fun i => f (i + 1))).
Proof.
  intros Hn. replace n with (1 + (n - 1))%nat at 1 by lia. rewrite total_app. cbn [total]. change plus with cadd. change (0, 0)%R with c0.
  replace (cadd c0 (f (Z.of_nat 0))) with (f 0) by (cbn [Z.of_nat]; ring). f_equal. apply total_ext. intros i Hi. f_equal. lia.
Qed.
Lemma generic_sum_ok fstride p scratch k : 0 <= fstride * k < N -> 0 < p -> generic_sum fstride N p tw scratch k = total (Z.to_nat p) (fun j => cmul (scratch j) (W (fstride * j * k))).
Proof.
  intros Hk Hp. unfold generic_sum.
  assert (A : forall j, 0 <= j -> fold_left (fun (s : Z * C) q =>
    let twidx := fst s + fstride * k in let twidx := if N <=? twidx then twidx - N else twidx in
    (twidx, cadd (snd s) (cmul (scratch q) (tw twidx)))) (range 1 (1 + j)) (0, scratch 0) =
    ((j * (fstride * k)) mod N, total (Z.to_nat (1 + j)) (fun j => cmul (scratch j) (W (fstride * j * k))))).
  { refine (natlike_ind _ _ _).
    - rewrite range_nil by lia. cbn [fold_left]. f_equal. change (Z.to_nat (1 + 0)) with 1%nat. cbn [total]. change plus with cadd. change (0, 0)%R with c0. cbn [Z.of_nat].
      rewrite Z.mul_0_r, Z.mul_0_l, root_0. ring.
    - intros j Hj IH. replace (1 + Z.succ j) with (1 + j + 1) by lia. rewrite range_snoc, fold_left_app by lia. rewrite IH. cbn [fold_left fst snd].
      assert (E : (if N <=? (j * (fstride * k)) mod N + fstride * k then (j * (fstride * k)) mod N + fstride * k - N else (j * (fstride * k)) mod N + fstride * k) = (Z.succ j * (fstride * k)) mod N).
      { pose proof (Z.mod_pos_bound (j * (fstride * k)) N HN) as B. replace (Z.succ j * (fstride * k)) with (j * (fstride * k) + fstride * k) by lia.
        rewrite <- Z.add_mod_idemp_l by lia. set (r := (j * (fstride * k)) mod N) in *. destruct (Z.leb_spec N (r + fstride * k)).
        - symmetry. replace (r + fstride * k) with (r + fstride * k - N + 1 * N) at 1 by lia. rewrite Z.mod_add by lia. apply Z.mod_small. lia.
        - symmetry. apply Z.mod_small. lia. }
      rewrite E. f_equal. rewrite Htw by (apply Z.mod_pos_bound; exact HN). rewrite root_mod by (assumption || lia).
      replace (Z.to_nat (1 + j + 1)) with (S (Z.to_nat (1 + j))) by lia. cbn [total]. change plus with cadd. rewrite Z2Nat.id by lia. f_equal. f_equal. f_equal. lia. }
  replace p with (1 + (p - 1)) by lia. rewrite A by lia. reflexivity.
Qed.
Lemma bfly_generic_ok Fout fstride m p : 0 < fstride -> 0 < m -> 0 < p -> fstride * (p * m) = N -> column_body Fout m p (kf_bfly_generic Fout fstride N m p tw) (combined fstride m p).
Proof.
  intros Hf Hm Hp E. split.
  - intros mem u x Hu Hx. unfold kf_bfly_generic. apply (fold_upd_miss (fun q1 => Fout + (u + q1 * m)) (fun q1 _ => generic_sum fstride N p tw (fun q => mem (Fout + (u + q * m))) (u + q1 * m))).
    intros Hi. apply in_map_iff in Hi as (q & <- & Hq). apply in_range in Hq. apply (Hx q Hq). unfold cell. lia.
  - intros mem u q Hu Hq. unfold kf_bfly_generic. replace (cell Fout m q u) with (Fout + (u + q * m)) by (unfold cell; lia).
    rewrite (fold_upd_hit (fun q1 => Fout + (u + q1 * m)) (fun q1 _ => generic_sum fstride N p tw (fun q => mem (Fout + (u + q * m))) (u + q1 * m))).
    + assert (K : 0 <= u + q * m < p * m) by nia. rewrite generic_sum_ok by nia. unfold combined. apply total_ext. intros j Hj. replace (u + q * m) with (q * m + u) by lia. unfold cell. do 2 f_equal. lia.
    + apply map_range_NoDup. intros. nia.
    + apply in_range. lia.
Qed.

(** the factors of the stages *)
Fixpoint chain (n : Z) (fs : list (Z * Z)) : Prop :=
  match fs with
  | [] => False
  | (p, m) :: rest => 0 < p /\ 0 < m /\ n = p * m /\ (m = 1 /\ rest = [] \/ chain m rest)
  end.
Variable st : kiss_fft_state.
Hypothesis Hst : nfft st = N /\ inverse st = (s =? 1) /\ twiddles st = tw.
Lemma work_ok fs : forall n Fout f fstride in_stride fin mem, chain n fs -> 0 < fstride -> fstride * n = N ->
  let r := kf_work fs Fout f fstride in_stride st fin mem in
  (forall k, 0 <= k < n -> r (Fout + k) = total (Z.to_nat n) (fun j => cmul (fin (f + j * (fstride * in_stride))) (W (fstride * j * k)))) /\
  (forall x, (forall k, 0 <= k < n -> x <> Fout + k) -> r x = mem x).
Proof.
  induction fs as [|[p m] rest IH]; intros n Fout f fstride in_stride fin mem Hc Hf E; [contradiction|]. destruct Hc as (Hp & Hm & -> & Hr).
  cbn [kf_work]. destruct Hst as (S1 & S2 & S3). rewrite S1, S2, S3.
  set (mem1 := if m =? 1 then _ else _).
  (* the p transforms of length m *)
  assert (A : (forall q u, 0 <= q < p -> 0 <= u < m -> mem1 (cell Fout m q u) = total (Z.to_nat m) (fun j => cmul (fin (f + (q + p * j) * (fstride * in_stride))) (W (fstride * p * j * u)))) /\
              (forall x, (forall k, 0 <= k < p * m -> x <> Fout + k) -> mem1 x = mem x)).
  { unfold mem1. destruct (Z.eqb_spec m 1) as [-> |Nm].
    - split.
      + intros q u Hq Hu. replace u with 0 by lia. replace (cell Fout 1 q 0) with (Fout + q) by (unfold cell; lia).
        rewrite (fold_upd_hit (fun q => Fout + q) (fun q _ => fin (f + q * (fstride * in_stride)))); [|apply map_range_NoDup; lia|apply in_range; lia].
        change (Z.to_nat 1) with 1%nat. cbn [total Z.of_nat]. change plus with cadd. change (0, 0)%R with c0. rewrite !Z.mul_0_r, root_0, Z.add_0_r. ring.
      + intros x Hx. apply (fold_upd_miss (fun q => Fout + q) (fun q _ => fin (f + q * (fstride * in_stride)))). intros Hi. apply in_map_iff in Hi as (q & <- & Hq). apply in_range in Hq. apply (Hx q); lia.
    - destruct Hr as [Hr|Hr]; [lia|].
      assert (B : forall j, 0 <= j -> j <= p -> let r := fold_left (fun mem q => kf_work rest (Fout + q * m) (f + q * (fstride * in_stride)) (fstride * p) in_stride st fin mem) (range 0 j) mem in
        (forall q u, 0 <= q < j -> 0 <= u < m -> r (cell Fout m q u) = total (Z.to_nat m) (fun j => cmul (fin (f + (q + p * j) * (fstride * in_stride))) (W (fstride * p * j * u)))) /\
        (forall x, (forall k, 0 <= k < j * m -> x <> Fout + k) -> r x = mem x)).
      { refine (natlike_ind _ _ _).
        - intros _. rewrite range_nil by lia. cbn [fold_left]. split; [intros; lia|auto].
        - intros j Hj IHj Hjp. cbv zeta. unfold Z.succ in *. rewrite range_snoc, fold_left_app by lia. cbn [fold_left]. specialize (IHj ltac:(lia)). cbv zeta in IHj. destruct IHj as [J1 J2].
          set (r := fold_left _ (range 0 j) mem) in *.
          destruct (IH m (Fout + j * m) (f + j * (fstride * in_stride)) (fstride * p) in_stride fin r Hr ltac:(nia) ltac:(nia)) as [W1 W2]. split.
          + intros q u Hq Hu. destruct (Z.eq_dec q j) as [-> |Nq].
            * replace (cell Fout m j u) with (Fout + j * m + u) by (unfold cell; lia). rewrite W1 by lia. apply total_ext. intros i Hi. do 2 f_equal. lia.
            * rewrite W2 by (intros k Hk; unfold cell; nia). apply J1; lia.
          + intros x Hx. rewrite W2; [apply J2; intros k Hk; apply Hx; nia|]. intros k Hk. replace (Fout + j * m + k) with (Fout + (j * m + k)) by lia. apply Hx. nia. }
      destruct (B p ltac:(lia) ltac:(lia)) as [B1 B2]. split; [intros; now apply B1|exact B2]. }
  destruct A as [A1 A2]. clearbody mem1.
  (* their combination *)
  assert (G : forall body, column_body Fout m p body (combined fstride m p) -> let r := fold_left body (range 0 m) mem1 in
    (forall k, 0 <= k < p * m -> r (Fout + k) = total (Z.to_nat (p * m)) (fun j => cmul (fin (f + j * (fstride * in_stride))) (W (fstride * j * k)))) /\
    (forall x, (forall k, 0 <= k < p * m -> x <> Fout + k) -> r x = mem x)).
  { intros body Hb. destruct (columns Fout m p body (combined fstride m p) Hm Hb (fun u c c' q => combined_ext fstride m p u c c' q) mem1) as [C1 C2].
    cbv zeta. split; [|intros x Hx; rewrite C2 by exact Hx; now apply A2].
    intros k Hk. set (q := k / m). set (u := k mod m). assert (Ek : k = q * m + u) by (unfold q, u; rewrite Z.mul_comm; apply Z.div_mod; lia).
    assert (Hu : 0 <= u < m) by (apply Z.mod_pos_bound; lia). assert (Hq : 0 <= q < p) by nia. clearbody q u.
    replace (Fout + k) with (cell Fout m q u) by (unfold cell; lia). rewrite C1 by assumption. unfold combined.
    rewrite Z2Nat.inj_mul, total_split by lia. apply total_ext. intros j Hj. rewrite A1 by lia. rewrite <- total_mul_r. apply total_ext. intros i Hi. rewrite Z2Nat.id by lia.
    replace (fstride * (j + p * i) * k) with (fstride * p * i * u + (fstride * j * (q * m + u) + N * (i * q))) by (rewrite Ek, <- E; ring).
    rewrite !W_add, W_mult. ring. }
  destruct (Z.eqb_spec p 2) as [-> |N2]; [apply G, bfly2_ok; auto|].
  destruct (Z.eqb_spec p 3) as [-> |N3]; [apply G, bfly3_ok; auto|].
  destruct (Z.eqb_spec p 4) as [-> |N4]; [apply G, bfly4_ok; auto|].
  destruct (Z.eqb_spec p 5) as [-> |N5]; [apply G, bfly5_ok; auto|].
  apply G, bfly_generic_ok; auto.
Qed.
End Work.

(** ** factors *)
Definition rank (p : Z) : Z := if p =? 4 then 0 else if p =? 2 then 1 else p.
Lemma find_p_ok n root : 1 <= n -> 0 <= root -> forall fuel p,
  (p = n /\ (0 < fuel)%nat) \/ (2 <= p /\ (p <= root \/ p = 4) /\ root + 4 < Z.of_nat fuel + rank p) ->
  exists p', find_p fuel n root p = Some p' /\ n mod p' = 0 /\ (2 <= p' \/ p' = n).
Proof.
  intros Hn Hr. induction fuel as [|fuel IH]; intros p H.
  - exfalso. unfold rank in H. destruct (Z.eqb_spec p 4), (Z.eqb_spec p 2); lia.
  - cbn [find_p]. destruct (Z.eqb_spec (n mod p) 0) as [E|E]; [exists p; repeat split; auto; lia|].
    destruct H as [[-> _]|(H1 & H2 & H3)]; [exfalso; apply E, Z.mod_same; lia|].
    apply IH. unfold next_p, rank in *. destruct (Z.eqb_spec p 4) as [P4|P4].
    + destruct (Z.ltb_spec root 2); [left; lia|]. right. cbn [Z.eqb Pos.eqb]. lia.
    + destruct (Z.eqb_spec p 2) as [P2|P2].
      * destruct (Z.ltb_spec root 3); [left; lia|]. right. cbn [Z.eqb Pos.eqb]. lia.
      * destruct (Z.ltb_spec root (p + 2)); [left; lia|]. right. destruct (Z.eqb_spec (p + 2) 4), (Z.eqb_spec (p + 2) 2); lia.
Qed.
Lemma find_p_range n root fuel : forall p, (p = n \/ p <= root \/ p = 4) -> forall p', find_p fuel n root p = Some p' -> p' = n \/ p' <= root \/ p' = 4.
Proof.
  induction fuel as [|fuel IH]; intros p H p' E; [discriminate|]. cbn [find_p] in E. destruct (n mod p =? 0); [injection E as <-; exact H|].
  apply (IH (next_p n root p)); [|exact E]. unfold next_p. destruct (Z.ltb_spec root (if p =? 4 then 2 else if p =? 2 then 3 else p + 2)); [now left|right; left; lia].
Qed.
Lemma factor_loop_ok root : 0 <= root -> forall fuel n p, 1 <= n <= Z.of_nat fuel -> 2 <= p -> p <= root \/ p = 4 ->
  exists l, factor_loop fuel n root p = Some l /\ chain n l /\ (n = 1 /\ l = [(1, 1)] \/ 2 ^ Z.of_nat (length l) <= n).
Proof.
  intros Hr. induction fuel as [|fuel IH]; intros n p Hn Hp Hpr; [lia|]. cbn [factor_loop].
  destruct (find_p_ok n root ltac:(lia) Hr (Z.to_nat root + 6) p) as (p' & E1 & E & P2).
  { right. split; [exact Hp|]. split; [exact Hpr|]. unfold rank. destruct (Z.eqb_spec p 4), (Z.eqb_spec p 2); lia. }
  pose proof (find_p_range n root _ p ltac:(tauto) p' E1) as Pr. rewrite E1.
  pose proof (Z.div_mod n p' ltac:(lia)) as D. rewrite E in D.
  assert (Hd : 1 <= n / p') by nia.
  destruct (Z.ltb_spec 1 (n / p')) as [L|L].
  - assert (2 <= p') by (destruct P2; [assumption|subst; rewrite Z.div_same in L; lia]).
    destruct (IH (n / p') p') as (l & -> & Cl & Bl); [nia|assumption| |].
    + destruct Pr as [Pr|Pr]; [subst p'; rewrite Z.div_same in L; lia|exact Pr].
    + exists ((p', n / p') :: l). split; [reflexivity|]. split; [cbn [chain]; split; [lia|]; split; [lia|]; split; [lia|now right]|]. right. cbn [length]. rewrite Nat2Z.inj_succ, Z.pow_succ_r by lia. nia.
  - exists [(p', n / p')]. assert (Q : n / p' = 1) by lia. rewrite Q in *. split; [reflexivity|]. split; [cbn [chain]; split; [lia|]; split; [lia|]; split; [lia|left; split; [lia|reflexivity]]|]. cbn [length]. change (2 ^ Z.of_nat 1) with 2.
    destruct (Z.eq_dec n 1); [left; split; [assumption|]; repeat f_equal; lia|right; lia].
Qed.
Lemma kf_factor_ok n : 1 <= n -> exists l, kf_factor n = Some l /\ chain n l /\ (n = 1 /\ l = [(1, 1)] \/ 2 ^ Z.of_nat (length l) <= n).
Proof. intros Hn. unfold kf_factor. apply factor_loop_ok; [apply Z.sqrt_nonneg|lia|lia|auto]. Qed.

(** ** one call *)
(** a state whose twiddles are those of direction s *)
Definition state_of (n s : Z) (st : kiss_fft_state) : Prop :=
  nfft st = n /\ chain n (factors st) /\ forall i, 0 <= i < n -> twiddles st i = root n s i.
Lemma alloc_ok n : 1 <= n -> exists st, kiss_fft_alloc n = Some st /\ state_of n (-1) st.
Proof.
  intros Hn. destruct (kf_factor_ok n Hn) as (l & E & Cl & _). unfold kiss_fft_alloc. rewrite E. eexists. split; [reflexivity|]. split; [reflexivity|]. split; [exact Cl|].
  intros i Hi. cbn [twiddles]. unfold root. replace (-2 * PI * IZR i / IZR n)%R with (- (2 * PI * IZR i / IZR n))%R by (unfold Rdiv; ring). rewrite cos_neg, sin_neg. f_equal. ring.
Qed.
Lemma kiss_ok st n sign prev fin : 1 <= n -> sign = 1 \/ sign = -1 -> prev = 1 \/ prev = -1 -> state_of n prev st ->
  let '(st', prev', out) := kiss_fft st fin n sign prev in
  state_of n sign st' /\ prev' = sign /\ (forall k, 0 <= k < n -> out k = dft n sign fin k) /\ (forall k, ~ 0 <= k < n -> out k = fin k).
Proof.
  intros Hn Hs Hp (S1 & S2 & S3). unfold kiss_fft. set (tw := if prev =? sign then _ else _). set (st' := {| nfft := _ |}).
  assert (T : forall i, 0 <= i < n -> tw i = root n sign i).
  { intros i Hi. unfold tw. destruct (Z.eqb_spec prev sign) as [E|E]; [rewrite <- E; now apply S3|].
    rewrite (fold_upd_hit (fun i => i) (fun i v => (fst v, snd v * -1)%R)); [|rewrite map_id; apply range_NoDup|apply in_range; lia]. rewrite S3 by exact Hi. unfold root. cbn [fst snd]. f_equal.
    destruct Hs as [-> | ->], Hp as [-> | ->]; try lia; ring. }
  clearbody tw. split; [split; [exact S1|split; [exact S2|exact T]]|]. split; [reflexivity|].
  assert (Wk : forall k, 0 <= k < n -> kf_work (factors st') 0 0 1 1 st' fin (fun _ => (0, 0)%R) k = dft n sign fin k).
  { intros k Hk. destruct (work_ok n sign Hs ltac:(lia) tw T st' (Logic.conj S1 (Logic.conj eq_refl eq_refl)) (factors st') n 0 0 1 1 fin (fun _ => (0, 0)%R) S2 ltac:(lia) ltac:(lia)) as [Wk _].
    specialize (Wk k Hk). rewrite Z.add_0_l in Wk. rewrite Wk. unfold dft. apply total_ext. intros j Hj. rewrite times_cmul. f_equal; f_equal; lia. }
  split.
  - intros k Hk. rewrite (fold_upd_hit (fun i => i) (fun i _ => kf_work (factors st') 0 0 1 1 st' fin (fun _ => (0, 0)%R) i)); [now apply Wk|rewrite map_id; apply range_NoDup|apply in_range; cbn [nfft st']; lia].
  - intros k Hk. apply (fold_upd_miss (fun i => i) (fun i _ => kf_work (factors st') 0 0 1 1 st' fin (fun _ => (0, 0)%R) i)). rewrite map_id. intros Hi. apply in_range in Hi. cbn [nfft st'] in Hi. lia.
Qed.
