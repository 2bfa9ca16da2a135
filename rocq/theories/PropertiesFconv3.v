(** Properties of fconv: the gathers of the two files (C73). *)
From Coq Require Import ZArith Reals List Lia Lra Bool.
From Verif Require Import ListAux FdKernels FdProofs FdOutputProofs Marchenko MarchenkoProofs MakemodProofs FftSize FftSpec FftAux PropertiesDft FftLayout PropertiesFftLayout Fconv FconvSpec FconvProofs.
Import ListNotations.
Local Open Scope Z_scope.

Section FILL.
Variables (dt alpha : R).
Lemma first_ok nt nsam nx nrec tmp i j : 0 <= nt <= nsam -> 1 <= nx <= nrec -> 0 <= i < nrec -> 0 <= j < nsam ->
  first_fill dt alpha nt nsam nx nrec tmp (i * nsam + j) = prepared dt alpha nt nx tmp i j.
Proof.
  intros Hnt Hnx Hi Hj. unfold first_fill. cbv zeta.
  set (d0 := fold_left _ (range 0 nx) _).
  assert (D0 : forall i j, 0 <= i < nx -> 0 <= j < nsam -> d0 (i * nsam + j) = prepared dt alpha nt nx tmp i j).
  { clear i j Hi Hj. intros i j Hi Hj. unfold d0. destruct (grid (fun i k => i * nsam + k) (fun i k _ => (tmp (i * nt + k)%Z * etap dt alpha k)%R) (range 0 nx) (range 0 nt) (range_NoDup _ _) (range_NoDup _ _)) with (m := fun _ : Z => 0%R) as [G1 G2].
    - intros a b a' b' Ha Hb Ha' Hb' E. rewrite in_range in *. apply (row_inj nsam nsam); lia.
    - unfold prepared. destruct (Z.ltb_spec j nt).
      + rewrite G1 by (apply in_range; lia). rewrite Z.min_l by lia. reflexivity.
      + rewrite G2; [reflexivity|]. intros a b Ha Hb E. apply in_range in Ha, Hb. destruct (row_inj nsam nsam i j a b); lia. }
  clearbody d0.
  assert (K : forall m, nx <= m -> m <= nrec -> forall i j, 0 <= i < m -> 0 <= j < nsam ->
     fold_left (fun d i => fold_left (fun d j => upd d (i * nsam + j) (d ((nx - 1) * nsam + j))) (range 0 nsam) d) (range nx m) d0 (i * nsam + j) = prepared dt alpha nt nx tmp i j).
  { clear i j Hi Hj. intros m Hm. replace m with (nx + (m - nx)) by ring. generalize (Z.sub_nonneg m nx). intros Q. assert (Q' : 0 <= m - nx) by lia. clear Q. revert Q'. generalize (m - nx). clear m Hm. refine (natlike_ind _ _ _).
    - intros _ i j Hi Hj. rewrite (range_nil nx) by lia. cbn [fold_left]. apply D0; lia.
    - intros m Hm IH Hr i j Hi Hj. replace (nx + Z.succ m) with (nx + m + 1) in * by lia. rewrite (range_snoc nx) by lia. rewrite fold_left_app. cbn [fold_left]. set (d := fold_left _ (range nx (nx + m)) d0) in *. specialize (IH ltac:(lia)). clearbody d.
      assert (R : forall l, 0 <= l <= nsam -> forall i j, 0 <= i < nx + m + 1 -> 0 <= j < nsam -> (i = nx + m -> j < l) ->
        fold_left (fun d j => upd d ((nx + m) * nsam + j) (d ((nx - 1) * nsam + j))) (range 0 l) d (i * nsam + j) = prepared dt alpha nt nx tmp i j).
      { clear i j Hi Hj. intros l [Hl Hl2]. revert l Hl Hl2. refine (natlike_ind _ _ _).
        - intros _ i j Hi Hj Hij. rewrite range_nil by lia. cbn [fold_left]. apply IH; lia.
        - intros l Hl IHl Hl2 i j Hi Hj Hij. unfold Z.succ in *. rewrite range_snoc, fold_left_app by lia. cbn [fold_left]. specialize (IHl ltac:(lia)). destruct (Z.eq_dec i (nx + m)) as [Ei|Ei], (Z.eq_dec j l) as [Ej|Ej].
          + subst i j. rewrite upd_same. rewrite IHl by lia. unfold prepared. destruct (Z.ltb_spec l nt); [|reflexivity]. now rewrite !Z.min_r by lia.
          + rewrite upd_other by (intros E; destruct (row_inj nsam nsam i j (nx + m) l); lia). apply IHl; lia.
          + rewrite upd_other by (intros E; destruct (row_inj nsam nsam i j (nx + m) l); lia). apply IHl; lia.
          + rewrite upd_other by (intros E; destruct (row_inj nsam nsam i j (nx + m) l); lia). apply IHl; lia. }
      apply R; lia. }
  apply K; lia.
Qed.
Lemma next_ok nt nsam nx nrec tmp data : 0 <= nt <= nsam -> forall i j, 0 <= i < nrec -> 0 <= j < nsam ->
  next_fill dt alpha nt nsam nx nrec tmp data (i * nsam + j) = prepared dt alpha nt nx tmp i j.
Proof.
  intros Hnt i j Hi Hj. unfold next_fill.
  rewrite (fold_left_ext _ (fun d i => fold_left (fun d j => upd d (i * nsam + j) (prepared dt alpha nt nx tmp i j)) (range 0 nsam) d)).
  - destruct (grid (fun i k => i * nsam + k) (fun i k _ => prepared dt alpha nt nx tmp i k) (range 0 nrec) (range 0 nsam) (range_NoDup _ _) (range_NoDup _ _)) with (m := data) as [G _].
    + intros a b a' b' Ha Hb Ha' Hb' E. rewrite in_range in *. apply (row_inj nsam nsam); lia.
    + apply G; apply in_range; lia.
  - intros d r _. cbv zeta. rewrite (range_split 0 nt nsam) by lia. rewrite fold_left_app.
    rewrite (fold_left_ext (fun o it => upd o (r * nsam + it) (prepared dt alpha nt nx tmp r it)) (fun o it => upd o (r * nsam + it) 0%R) (range nt nsam)).
    + f_equal. apply fold_left_ext. intros a b Hb. apply in_range in Hb. unfold prepared. replace (b <? nt) with true by lia. unfold etap. f_equal. f_equal. f_equal. f_equal. f_equal. destruct (Z.ltb_spec r nx); lia.
    + intros a b Hb. apply in_range in Hb. unfold prepared. now replace (b <? nt) with false by lia.
Qed.
End FILL.

(** ** C73 *)
Definition none : gather := mkGather 0 (fun _ => 0%R).
(** The rows of data hold the traces of gather g *)
Definition holds (dt alpha : R) (nt nsam rows : Z) (g : gather) (data : Z -> R) : Prop :=
  forall i j, 0 <= i < rows -> 0 <= j < nsam -> data (i * nsam + j) = prepared dt alpha nt (g_nx g) (g_val g) i j.
(** The first gathers: nt samples padded with zeroes to ntfft, and the shorter gather extended with its last trace. *)
Theorem C73_first_gather nt1 nt2 dt alpha ntfft g gs h hs :
  let nsam := match ntfft with Some n => n | None => Z.max nt1 nt2 end in
  let nrec := Z.max (g_nx g) (g_nx h) in
  0 <= nt1 <= nsam -> 0 <= nt2 <= nsam -> 1 <= g_nx g -> 1 <= g_nx h ->
  exists c cs, calls nt1 nt2 dt alpha ntfft (g :: gs) (h :: hs) = c :: cs /\
    c_nsam c = nsam /\ c_nrec c = nrec /\ holds dt alpha nt1 nsam nrec g (c_data1 c) /\ holds dt alpha nt2 nsam nrec h (c_data2 c).
Proof.
  intros nsam nrec H1 H2 Hg Hh. unfold calls. fold nsam nrec. do 2 eexists. split; [reflexivity|]. cbn [c_nsam c_nrec c_data1 c_data2]. split; [reflexivity|]. split; [reflexivity|].
  split; intros i j Hi Hj; apply first_ok; lia.
Qed.
Print Assumptions C73_first_gather.

Lemma later_repeat nt1 nt2 dt alpha nx2r gs : forall hs nx2 data1 data2 k, 0 <= nt1 -> (k < length gs)%nat ->
  let nsam := Z.max nt1 nt2 in
  exists c, nth_error (later nt1 nt2 dt alpha nx2r gs hs true nx2 data1 data2) k = Some c /\
    c_nsam c = nsam /\ c_nrec c = Z.max (g_nx (nth k gs none)) nx2 /\ holds dt alpha nt1 nsam (c_nrec c) (nth k gs none) (c_data1 c) /\ c_data2 c = data2.
Proof.
  induction gs as [|g gs IH]; intros hs nx2 data1 data2 k Hnt Hk nsam; [cbn in Hk; lia|]. cbn [later]. fold nsam. destruct k as [|k].
  - eexists. split; [reflexivity|]. cbn [nth c_nsam c_nrec c_data1 c_data2]. split; [reflexivity|]. split; [reflexivity|]. split; [|reflexivity]. intros i j Hi Hj. apply next_ok; [lia|exact Hi|exact Hj].
  - cbn [nth_error nth length] in *. apply IH; lia.
Qed.
Lemma later_ok nt1 nt2 dt alpha nx2r gs : forall hs g h nx2 data1 data2 k, 0 <= nt1 -> 0 <= nt2 -> (k < length gs)%nat ->
  let nsam := Z.max nt1 nt2 in
  holds dt alpha nt2 nsam (Z.max (g_nx g) (g_nx h)) h data2 ->
  let last := Nat.min (S k) (length hs) in
  exists c, nth_error (later nt1 nt2 dt alpha nx2r gs hs false nx2 data1 data2) k = Some c /\
    c_nsam c = nsam /\
    c_nrec c = Z.max (g_nx (nth k gs none)) (if (k <? length hs)%nat then g_nx (nth k hs none) else nx2r) /\
    holds dt alpha nt1 nsam (c_nrec c) (nth k gs none) (c_data1 c) /\
    holds dt alpha nt2 nsam (Z.max (g_nx (nth last (g :: gs) none)) (g_nx (nth last (h :: hs) none))) (nth last (h :: hs) none) (c_data2 c).
Proof.
  induction gs as [|g' gs IH]; intros hs g h nx2 data1 data2 k Hn1 Hn2 Hk nsam Hd last; [cbn in Hk; lia|]. destruct hs as [|h' hs].
  - cbn [later]. fold nsam. assert (El : last = O) by (unfold last; cbn; lia). rewrite El. change (nth 0 (g :: g' :: gs) none) with g. change (nth 0 [h] none) with h. replace (k <? length (@nil gather))%nat with false by (symmetry; apply Nat.ltb_ge; cbn; lia).
    destruct k as [|k].
    + eexists. split; [reflexivity|]. cbn [nth c_nsam c_nrec c_data1 c_data2]. split; [reflexivity|]. split; [reflexivity|]. split; [|exact Hd]. intros i j Hi Hj. apply next_ok; [lia|exact Hi|exact Hj].
    + cbn [nth_error nth length] in *. destruct (later_repeat nt1 nt2 dt alpha nx2r gs [] nx2r (next_fill dt alpha nt1 nsam (g_nx g') (Z.max (g_nx g') nx2r) (g_val g') data1) data2 k Hn1 ltac:(lia)) as (c & A & B & C & D & E). exists c. split; [exact A|]. split; [exact B|]. split; [exact C|]. split; [exact D|]. now rewrite E.
  - cbn [later]. fold nsam. destruct k as [|k].
    + assert (El : last = 1%nat) by (unfold last; cbn; lia). rewrite El. eexists. split; [reflexivity|]. cbn [nth c_nsam c_nrec c_data1 c_data2 length Nat.ltb Nat.leb]. split; [reflexivity|]. split; [reflexivity|]. split; intros i j Hi Hj; (apply next_ok; [lia|exact Hi|exact Hj]).
    + cbn [nth_error length] in *. 
      specialize (IH hs g' h' (g_nx h') (next_fill dt alpha nt1 nsam (g_nx g') (Z.max (g_nx g') (g_nx h')) (g_val g') data1) (next_fill dt alpha nt2 nsam (g_nx h') (Z.max (g_nx g') (g_nx h')) (g_val h') data2) k Hn1 Hn2 ltac:(lia)). cbv zeta in IH. fold nsam in IH.
      destruct IH as (c & A & B & C & D & E); [intros i j Hi Hj; apply next_ok; [lia|exact Hi|exact Hj]|].
      exists c. split; [exact A|]. split; [exact B|]. split; [exact C|]. split; [exact D|]. replace last with (S (Nat.min (S k) (length hs))) by (unfold last; cbn; lia). exact E.
Qed.
(** Gather k+1 of file 1 is combined with gather k+1 of file 2, or with its last one (number last) when file 2 has fewer
    gathers.  The rows of the second array are right as far as that gather was extended when it was read. *)
Theorem C73_later_gathers nt1 nt2 dt alpha ntfft g gs h hs k : 0 <= nt1 -> 0 <= nt2 -> 1 <= g_nx g -> 1 <= g_nx h ->
  let nsam := Z.max nt1 nt2 in
  ntfft = None \/ ntfft = Some nsam -> (k < length gs)%nat ->
  let last := Nat.min (S k) (length hs) in
  exists c, nth_error (calls nt1 nt2 dt alpha ntfft (g :: gs) (h :: hs)) (S k) = Some c /\
    c_nsam c = nsam /\
    c_nrec c = Z.max (g_nx (nth k gs none)) (if (k <? length hs)%nat then g_nx (nth k hs none) else g_nx h) /\
    holds dt alpha nt1 nsam (c_nrec c) (nth k gs none) (c_data1 c) /\
    holds dt alpha nt2 nsam (Z.max (g_nx (nth last (g :: gs) none)) (g_nx (nth last (h :: hs) none))) (nth last (h :: hs) none) (c_data2 c).
Proof.
  intros Hn1 Hn2 Hg Hh nsam Hf Hk last. unfold calls. cbn [nth_error]. apply later_ok; [assumption|assumption|assumption|]. intros i j Hi Hj. fold nsam. destruct Hf as [-> | ->]; fold nsam; apply first_ok; lia.
Qed.
Print Assumptions C73_later_gathers.
(** One output gather for every gather of file 1 *)
Theorem C73_count nt1 nt2 dt alpha ntfft gs h hs : length (calls nt1 nt2 dt alpha ntfft gs (h :: hs)) = length gs.
Proof.
  destruct gs as [|g gs]; [reflexivity|]. cbn [calls length]. f_equal. generalize (first_fill dt alpha nt1 (match ntfft with Some n => n | None => Z.max nt1 nt2 end) (g_nx g) (Z.max (g_nx g) (g_nx h)) (g_val g)) (first_fill dt alpha nt2 (match ntfft with Some n => n | None => Z.max nt1 nt2 end) (g_nx h) (Z.max (g_nx g) (g_nx h)) (g_val h)).
  generalize (g_nx h) at 2. generalize (g_nx h). generalize false. revert hs. clear. induction gs as [|g gs IH]; intros hs b r n d1 d2; [reflexivity|]. cbn [later]. destruct b, hs; cbn [length]; f_equal; apply IH.
Qed.
Print Assumptions C73_count.
(** A regular data set: when all gathers of each file have the same number of traces every call is complete. *)
Theorem C73_regular nt1 nt2 dt alpha gs hs nx1 nx2 k : 0 <= nt1 -> 0 <= nt2 -> 1 <= nx1 -> 1 <= nx2 -> hs <> [] ->
  (forall g, In g gs -> g_nx g = nx1) -> (forall h, In h hs -> g_nx h = nx2) -> (k < length gs)%nat ->
  exists c, nth_error (calls nt1 nt2 dt alpha None gs hs) k = Some c /\ c_nsam c = Z.max nt1 nt2 /\ c_nrec c = Z.max nx1 nx2 /\
    holds dt alpha nt1 (c_nsam c) (c_nrec c) (nth k gs none) (c_data1 c) /\ holds dt alpha nt2 (c_nsam c) (c_nrec c) (nth (Nat.min k (length hs - 1)) hs none) (c_data2 c).
Proof.
  intros Hn1 Hn2 H1 H2 Hh Ag Ah Hk. destruct gs as [|g gs]; [cbn in Hk; lia|]. destruct hs as [|h hs]; [congruence|]. assert (Eg : g_nx g = nx1) by (apply Ag; now left). assert (Eh : g_nx h = nx2) by (apply Ah; now left).
  destruct k as [|k].
  - destruct (C73_first_gather nt1 nt2 dt alpha None g gs h hs) as (c & cs & E & A & B & C & D); [lia|lia|lia|lia|]. exists c. rewrite E. cbn [nth_error]. rewrite A, B, Eg, Eh in *. split; [reflexivity|]. split; [reflexivity|]. split; [reflexivity|]. split; [exact C|exact D].
  - cbn [length] in Hk. destruct (C73_later_gathers nt1 nt2 dt alpha None g gs h hs k Hn1 Hn2 ltac:(lia) ltac:(lia) (or_introl eq_refl) ltac:(lia)) as (c & E & A & B & C & D). exists c. split; [exact E|]. split; [exact A|].
    assert (Gk : g_nx (nth k gs none) = nx1) by (apply Ag; right; apply nth_In; lia).
    assert (B' : c_nrec c = Z.max nx1 nx2). { rewrite B, Gk. destruct (Nat.ltb_spec k (length hs)); [rewrite (Ah (nth k hs none)) by (right; now apply nth_In)|rewrite Eh]; reflexivity. }
    split; [exact B'|]. rewrite A. split; [exact C|]. set (l := Nat.min (S k) (length hs)) in *. replace (Nat.min (S k) (length (h :: hs) - 1)) with l by (cbn [length]; lia).
    rewrite (Ag (nth l (g :: gs) none)) in D by (apply nth_In; cbn [length]; lia). rewrite (Ah (nth l (h :: hs) none)) in D by (apply nth_In; cbn [length]; lia). rewrite B'. exact D.
Qed.
Print Assumptions C73_regular.
(** Two gathers of 2 and 1 traces, with 2 samples, against one gather of 1 trace with 1 sample *)
Example C73_nonvacuous :
  let g := mkGather 2 (fun x => IZR (x + 1)) in
  let h := mkGather 1 (fun x => IZR (x + 7)) in
  exists c, nth_error (calls 2 1 1 0 None [g; g] [h]) 1 = Some c /\ c_nsam c = 2 /\ c_nrec c = 2 /\
    c_data1 c 3 = 4%R /\ c_data2 c 0 = 7%R /\ c_data2 c 1 = 0%R /\ c_data2 c 2 = 7%R.
Proof.
  intros g h. destruct (C73_regular 2 1 1 0 [g; g] [h] 2 1 1) as (c & A & B & C & D & E); try lia; try discriminate.
  - intros x [<- | [<- | []]]; reflexivity.
  - intros x [<- | []]; reflexivity.
  - cbn; lia.
  - exists c. rewrite B, C in *. split; [exact A|]. split; [reflexivity|]. split; [reflexivity|].
    pose proof (D 1 1 ltac:(lia) ltac:(cbn; lia)) as D1. pose proof (E 0 0 ltac:(lia) ltac:(cbn; lia)) as E0. pose proof (E 0 1 ltac:(lia) ltac:(cbn; lia)) as E1. pose proof (E 1 0 ltac:(lia) ltac:(cbn; lia)) as E2.
    change (c_data1 c 3 = (4 * exp (0 * 1 * 1))%R) in D1. change (c_data2 c 0 = (7 * exp (0 * 0 * 1))%R) in E0. change (c_data2 c 1 = 0%R) in E1. change (c_data2 c 2 = (7 * exp (0 * 0 * 1))%R) in E2.
    rewrite D1, E0, E1, E2, !Rmult_0_l, exp_0. repeat split; ring.
Qed.
(** False: ntfft is used for all gathers.  The second gather is transformed with the length of the traces, and the array of
    a repeated gather of file 2 is then read with the wrong trace length. *)
Theorem C73_ntfft_refuted :
  let g := mkGather 2 (fun x => IZR (x + 1)) in
  exists c1 c2, calls 2 2 1 0 (Some 4) [g; g] [g] = [c1; c2] /\ c_nsam c1 = 4 /\ c_nsam c2 = 2 /\ c_nrec c2 = 2 /\
    c_data2 c2 (1 * c_nsam c2) = 0%R /\ prepared 1 0 2 2 (g_val g) 1 0 = 3%R.
Proof.
  intros g. do 2 eexists. split; [reflexivity|]. split; [reflexivity|]. split; [reflexivity|]. split; [reflexivity|]. split.
  - exact (first_ok 1 0 2 4 2 2 (g_val g) 0 2 ltac:(lia) ltac:(lia) ltac:(lia) ltac:(lia)).
  - change (prepared 1 0 2 2 (g_val g) 1 0) with (3 * exp (0 * 0 * 1))%R. rewrite !Rmult_0_l, exp_0. ring.
Qed.
Print Assumptions C73_ntfft_refuted.
(** False: a repeated gather of file 2 is extended to the number of traces of the gather it is combined with. *)
Theorem C73_repeated_gather_refuted :
  let g := fun n => mkGather n (fun x => IZR (x + 1)) in
  exists c1 c2, calls 1 1 1 0 None [g 1; g 2] [g 1] = [c1; c2] /\ c_nrec c2 = 2 /\ c_data2 c1 0 = 1%R /\ c_data2 c2 1 = 0%R /\
    prepared 1 0 1 1 (g_val (g 1)) 1 0 = 1%R.
Proof.
  intros g. do 2 eexists. split; [reflexivity|]. split; [reflexivity|].
  assert (E : forall x, (x * exp (0 * 0 * 1) = x)%R) by (intros; rewrite !Rmult_0_l, exp_0; ring).
  split; [exact (E 1%R)|]. split; [reflexivity|exact (E 1%R)].
Qed.
Print Assumptions C73_repeated_gather_refuted.
(** The damping is taken off with the time of the sample: j, or j - nsam/2 modulo nsam with the shift. *)
Theorem C73_written dt alpha ntmax nsam ntout shift conv i j : Z.even nsam = true -> 0 <= j < nsam -> nsam <= ntmax ->
  written dt alpha ntmax nsam ntout shift conv i j =
  Some (conv (i * ntout + j)%Z * exp (- (alpha * IZR (if shift then (j - nsam / 2) mod nsam else j) * dt)))%R.
Proof.
  intros He Hj Hn. unfold written, etapi. replace (j <? ntmax) with true by lia. f_equal. f_equal.
  destruct shift; [|f_equal; ring]. apply Z.even_spec in He. destruct He as [h ->]. replace (2 * h / 2) with h by (rewrite Z.mul_comm, Z.div_mul; lia).
  destruct (Z.ltb_spec j h).
  - replace ((j - h) mod (2 * h)) with (h + j); [rewrite plus_IZR; f_equal; ring|]. apply Z.mod_unique with (-1); lia.
  - rewrite Z.mod_small by lia. f_equal. ring.
Qed.
Print Assumptions C73_written.
Example C73_written_nonvacuous conv : written 2 1 4 4 4 true conv 0 1 = Some (conv 1%Z * exp (-6))%R.
Proof. rewrite C73_written by (reflexivity || lia). replace (-6)%R with (- (1 * 3 * 2))%R by ring. reflexivity. Qed.
(** False: every sample of a padded trace can be written.  The table of damping factors has ntmax entries (default: the
    longest trace) but ntfft samples are written. *)
Theorem C73_written_refuted : exists ntmax nsam j, 0 <= j < nsam /\ ntmax = Z.max 2 2 /\ forall dt alpha conv, written dt alpha ntmax nsam nsam false conv 0 j = None.
Proof. exists 2, 4, 3. split; [lia|]. split; reflexivity. Qed.
Print Assumptions C73_written_refuted.
