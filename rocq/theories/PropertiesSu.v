(** Seismic data files: reading and writing shot records (C60), file information (C61), positions
    of sources and receivers and reciprocal traces (C62).  The specification is in SuSpec.v. *)
From Coq Require Import ZArith QArith Qabs List Bool Lia.
From Verif Require Import ListAux FdKernels FdProofs FdOutputProofs Marchenko MarchenkoProofs SuFile SuSpec SuProofs SuProofs2 SuProofs3.
Import ListNotations.
Local Open Scope Z_scope.

Lemma range_len a b : length (range a b) = Z.to_nat (b - a).
Proof. unfold range. now rewrite map_length, seq_length. Qed.
Lemma nth_error_range b k : (k < Z.to_nat b)%nat -> nth_error (range 0 b) k = Some (0 + Z.of_nat k).
Proof.
  intros H. unfold range. rewrite Z.sub_0_r, nth_error_map. rewrite (nth_error_nth' _ 0%nat) by (rewrite seq_length; exact H). rewrite seq_nth by exact H. reflexivity.
Qed.

(** ** C60: shot records *)
(** headers are blocks of 240 bytes *)
Definition header_array (hdrs : Z -> list Z) : Prop := forall i, length (hdrs i) = 240%nat.
(** Successive calls of readData on a file deliver the records of a list, into any arrays, and then
    report the end of the file (or fail). *)
Inductive ending := End | Failure.
Inductive reading (n n1 : Z) : file -> list (list trace) -> ending -> Prop :=
| reading_end f : (forall data hdrs, header_array hdrs -> exists hdrs', readData f data hdrs n1 = Ret (0, data, hdrs', f) /\ forall i, hdrs' i = hdrs i) -> reading n n1 f [] End
| reading_failure f : (forall data hdrs, header_array hdrs -> readData f data hdrs n1 = Abort) -> reading n n1 f [] Failure
| reading_record f f' g gs e : g <> [] ->
    (forall data hdrs, header_array hdrs -> exists data' hdrs', readData f data hdrs n1 = Ret (Z.of_nat (length g), data', hdrs', f') /\ holds n g data hdrs data' hdrs') ->
    reading n n1 f' gs e -> reading n n1 f (g :: gs) e.

(** Every sequence of traces is divided into shot records in exactly one way. *)
Theorem C60_division ts : exists! gs, records ts gs.
Proof. exists (split_records ts). split; [apply split_records_ok|]. intros hs H. apply (records_unique _ ts); [apply split_records_ok|exact H]. Qed.
Print Assumptions C60_division.

Lemma reading_from n n1 : n1 = n \/ n1 = 0 -> forall gs ts pre, Forall (is_trace n) ts -> records ts gs -> reading n n1 (At pre (file_of ts)) gs End.
Proof.
  intros H1. induction gs as [|g gs IH]; intros ts pre F R.
  - apply records_nil in R. subst ts. apply reading_end. intros data hdrs Hh. apply readData_end.
  - apply records_cons in R. destruct R as (rest & -> & R & Ne & S1 & S2). apply Forall_app in F. destruct F as [Fg Fr].
    apply reading_record with (f' := At (pre ++ file_of g) (file_of rest)); [assumption| |].
    + intros data hdrs Hh. rewrite file_of_app. apply readData_record; try assumption; [|apply Hh].
      intros a Ha. apply (ends_file n); [assumption|]. destruct rest as [|b r]; cbn; [exact I|]. now apply (S2 a b r).
    + now apply IH.
Qed.
(** Reading a file record by record delivers its shot records, complete and in order. *)
Theorem C60_read_records n ts gs : Forall (is_trace n) ts -> records ts gs -> forall n1, n1 = n \/ n1 = 0 -> reading n n1 (mkFile (file_of ts) 0) gs End.
Proof. intros F R n1 H1. apply (reading_from n n1 H1 gs ts [] F R). Qed.
Print Assumptions C60_read_records.

(** A file that breaks off within a trace is reported by a failed assertion; at most the last record
    of complete traces is not delivered. *)
Lemma header_first n u tail more : is_trace n u -> tail ++ more = trace_bytes u -> 240 <= Z.of_nat (length tail) -> tail = t_hdr u ++ skipn 240 tail.
Proof.
  intros Hu Em L. rewrite <- (firstn_skipn 240 tail) at 1. f_equal. unfold trace_bytes in Em.
  transitivity (firstn 240 (tail ++ more)). { rewrite firstn_app. replace (240 - length tail)%nat with 0%nat by lia. cbn [firstn]. now rewrite app_nil_r. }
  rewrite Em. rewrite <- (is_trace_len n u Hu) at 1. apply firstn_app_len.
Qed.
Lemma loop_truncated n k : forall g t fuel a data hdrs pre u tail, 0 < n -> (length g < fuel)%nat -> Forall (is_trace n) (t :: g) -> is_trace n u -> Forall (same_shot k) g ->
  (exists more, tail ++ more = trace_bytes u /\ more <> []) -> tail <> [] -> (Z.of_nat (length tail) < 240 \/ same_shot k u) ->
  readData_loop (S fuel) n (sx k) (fldr k) a data hdrs (At pre (concat (t_smp t) ++ file_of g ++ tail)) = Abort.
Proof.
  induction g as [|v g IH]; intros t fuel a data hdrs pre u tail Hn Hf Ft Hu Fs (more & Em & Nm) Nt Hs; (destruct fuel as [|fuel]; [cbn in Hf; lia|]);
    pose proof (Forall_inv Ft) as Ht; cbn [readData_loop];
    rewrite (fread_full 4 n) by (try lia; now rewrite (smp_len n t Ht)); rewrite Z.eqb_refl; cbn [negb].
  - rewrite file_of_nil. cbn [app].
    assert (Lt : Z.of_nat (length tail) + Z.of_nat (length more) = 240 + 4 * n).
    { rewrite <- Nat2Z.inj_add, <- app_length, Em. unfold trace_bytes. rewrite app_length, Nat2Z.inj_add, (smp_len n u Hu), (is_trace_len n u Hu). reflexivity. }
    assert (0 < Z.of_nat (length more)) by (destruct more; [congruence|cbn [length]; lia]).
    assert (0 < Z.of_nat (length tail)) by (destruct tail; [congruence|cbn [length]; lia]).
    destruct (Z.ltb_spec (Z.of_nat (length tail)) 240) as [L|L].
    + destruct (fread_short 1 TRCBYTES (pre ++ concat (t_smp t)) tail) as (bs & f' & E & _); try (unfold TRCBYTES; lia).
      rewrite E. rewrite Z.div_1_r. replace (Z.of_nat (length tail) =? 0) with false by (symmetry; apply Z.eqb_neq; lia).
      replace (Z.of_nat (length tail) =? TRCBYTES) with false by (symmetry; apply Z.eqb_neq; unfold TRCBYTES; lia). reflexivity.
    + destruct Hs as [Hs|Hs]; [lia|].
      rewrite (header_first n u tail more Hu Em L). rewrite (fread_full 1 TRCBYTES) by (try (unfold TRCBYTES; lia); apply (trc_len n u Hu)).
      replace (TRCBYTES =? 0) with false by reflexivity. rewrite Z.eqb_refl. cbn [negb].
      destruct (negb (sx k =? h_sx (t_hdr u)) || negb (fldr k =? h_fldr (t_hdr u))) eqn:D.
      { apply (differs k u (is_trace_len n u Hu)) in D. contradiction. }
      cbn [readData_loop]. destruct (fread_short 4 n ((pre ++ concat (t_smp t)) ++ t_hdr u) (skipn 240 tail)) as (bs & f' & E & Lq); try lia.
      { rewrite skipn_length. lia. }
      rewrite E. match goal with |- context [?x =? n] => replace (x =? n) with false by (symmetry; apply Z.eqb_neq; lia) end. reflexivity.
  - pose proof (Forall_inv_tail Ft) as Fv. pose proof (Forall_inv Fv) as Hv.
    rewrite file_of_cons, <- !app_assoc. rewrite (fread_full 1 TRCBYTES) by (try (unfold TRCBYTES; lia); apply (trc_len n v Hv)).
    replace (TRCBYTES =? 0) with false by reflexivity. rewrite Z.eqb_refl. cbn [negb].
    destruct (negb (sx k =? h_sx (t_hdr v)) || negb (fldr k =? h_fldr (t_hdr v))) eqn:D.
    { apply (differs k v (is_trace_len n v Hv)) in D. exfalso. apply D. exact (Forall_inv Fs). }
    apply (IH v fuel) with (u := u); try assumption; [cbn in Hf; lia|exact (Forall_inv_tail Fs)|]. now exists more.
Qed.

Lemma readData_truncated n g u tail pre data hdrs : 0 < n -> Forall (is_trace n) g -> is_trace n u -> (forall a b, In a g -> In b g -> same_shot a b) ->
  (exists more, tail ++ more = trace_bytes u /\ more <> []) -> tail <> [] -> (Z.of_nat (length tail) < 240 \/ forall a, In a g -> same_shot a u) -> length (hdrs 0) = 240%nat ->
  readData (At pre (file_of g ++ tail)) data hdrs n = Abort.
Proof.
  intros Hn Fg Hu S1 Hm Nt Hs L0. destruct g as [|t g].
  - rewrite file_of_nil. cbn [app]. destruct Hm as (more & Em & Nm).
    assert (Lt : Z.of_nat (length tail) + Z.of_nat (length more) = 240 + 4 * n).
    { rewrite <- Nat2Z.inj_add, <- app_length, Em. unfold trace_bytes. rewrite app_length, Nat2Z.inj_add, (smp_len n u Hu), (is_trace_len n u Hu). reflexivity. }
    assert (0 < Z.of_nat (length more)) by (destruct more; [congruence|cbn [length]; lia]).
    assert (0 < Z.of_nat (length tail)) by (destruct tail; [congruence|cbn [length]; lia]).
    unfold readData. rewrite fread_some by (unfold TRCBYTES; lia). cbv zeta. rewrite Z.div_1_r.
    set (got := Z.min (1 * TRCBYTES) (Z.of_nat (length tail))). assert (0 < got) by (unfold got, TRCBYTES; lia).
    replace (got =? 0) with false by (symmetry; apply Z.eqb_neq; lia). replace (n =? 0) with false by (symmetry; apply Z.eqb_neq; lia).
    cbn [readData_loop]. destruct (fread_short 4 n (pre ++ firstn (Z.to_nat got) tail) (skipn (Z.to_nat got) tail)) as (bs & f' & E & Lq); try lia.
    { rewrite skipn_length. unfold got, TRCBYTES. lia. }
    rewrite E. match goal with |- context [?x =? n] => replace (x =? n) with false by (symmetry; apply Z.eqb_neq; lia) end. reflexivity.
  - pose proof (Forall_inv Fg) as Ht. unfold readData. rewrite file_of_cons, <- !app_assoc.
    rewrite (fread_full 1 TRCBYTES) by (try (unfold TRCBYTES; lia); apply (trc_len n t Ht)). replace (TRCBYTES =? 0) with false by reflexivity.
    rewrite (hdr_first_overlay hdrs _ L0 (is_trace_len n t Ht)). rewrite !upd_same, (w_sx t (is_trace_len n t Ht)), (w_fldr t (is_trace_len n t Ht)).
    replace (n =? 0) with false by (symmetry; apply Z.eqb_neq; lia).
    apply (loop_truncated n t) with (u := u); try assumption.
    + unfold At. cbn [f_bytes]. rewrite !app_length.
      assert (length g <= length (file_of g))%nat by (apply file_of_len; apply Forall_inv_tail in Fg; revert Fg; apply Forall_impl; intros ? (H & _); exact H).
      rewrite (is_trace_len n t Ht). lia.
    + apply Forall_forall. intros x Hx. apply S1; [now left|now right].
    + destruct Hs as [Hs|Hs]; [now left|right]. apply Hs. now left.
Qed.
Theorem C60_truncated n ts gs u tail more : 0 < n -> Forall (is_trace n) ts -> is_trace n u -> records ts gs -> tail ++ more = trace_bytes u -> tail <> [] -> more <> [] ->
  exists l r, gs = l ++ r /\ (length r <= 1)%nat /\ reading n n (mkFile (file_of ts ++ tail) 0) l Failure.
Proof.
  intros Hn F Hu R Em Nt Nm.
  assert (G : forall gs ts pre, Forall (is_trace n) ts -> records ts gs -> exists l r, gs = l ++ r /\ (length r <= 1)%nat /\ reading n n (At pre (file_of ts ++ tail)) l Failure).
  { clear gs ts F R. induction gs as [|g gs IH]; intros ts pre F R.
    - apply records_nil in R. subst ts. exists [], []. split; [reflexivity|]. split; [cbn; lia|]. apply reading_failure. intros data hdrs Hh.
      apply (readData_truncated n [] u); try assumption; [intros a b []|now exists more|right; intros a []|apply Hh].
    - apply records_cons in R. destruct R as (rest & -> & R & Ne & S1 & S2). apply Forall_app in F. destruct F as [Fg Fr]. destruct gs as [|h gs].
      + apply records_nil in R. subst rest. rewrite app_nil_r.
        assert (D : (Z.of_nat (length tail) < 240 \/ (forall a, In a g -> same_shot a u)) \/ (240 <= Z.of_nat (length tail) /\ forall a, In a g -> ~ same_shot a u)).
        { destruct (Z.ltb_spec (Z.of_nat (length tail)) 240); [left; now left|]. destruct g as [|t g]; [congruence|].
          destruct (same_shotb t u) eqn:Q.
          - left. right. intros a Ha. apply same_shot_trans with t; [apply S1; [assumption|now left]|]. now apply same_shotb_ok.
          - right. split; [assumption|]. intros a Ha N. assert (same_shot t u) by (apply same_shot_trans with a; [apply S1; [now left|assumption]|assumption]). apply same_shotb_ok in H0. congruence. }
        destruct D as [D|(D1 & D2)].
        * exists [], [g]. split; [reflexivity|]. split; [cbn; lia|]. apply reading_failure. intros data hdrs Hh.
          apply (readData_truncated n g u); try assumption; [now exists more|apply Hh].
        * exists [g], []. split; [reflexivity|]. split; [cbn; lia|].
          apply reading_record with (f' := At (pre ++ file_of g) tail); [assumption| |].
          -- intros data hdrs Hh. apply readData_record; try assumption; [|apply Hh|now left]. intros a Ha. right. exists u, (skipn 240 tail).
             split; [apply (header_first n u tail more Hu Em D1)|]. split; [exact (is_trace_len n u Hu)|now apply D2].
          -- apply reading_failure. intros data hdrs Hh. change tail with (file_of [] ++ tail) at 1.
             apply (readData_truncated n [] u); try assumption; [intros ? ? []|now exists more|right; intros ? []|apply Hh].
      + destruct (IH rest (pre ++ file_of g) Fr R) as (l & r & E & L & Rd). exists (g :: l), r. split; [now rewrite E|]. split; [assumption|].
        apply reading_record with (f' := At (pre ++ file_of g) (file_of rest ++ tail)); [assumption| |exact Rd].
        intros data hdrs Hh. rewrite file_of_app, <- app_assoc. apply readData_record; try assumption; [|apply Hh|now left].
        apply records_cons in R. destruct R as (rest2 & -> & _ & Nh & _ & _). destruct h as [|b h]; [congruence|].
        intros a Ha. right. exists b, (concat (t_smp b) ++ file_of (h ++ rest2) ++ tail). cbn [app]. split; [rewrite file_of_cons, <- !app_assoc; reflexivity|].
        split; [apply (is_trace_len n b); exact (Forall_inv Fr)|]. apply (S2 a b (h ++ rest2)); [assumption|reflexivity]. }
  exact (G gs ts [] F R).
Qed.
Print Assumptions C60_truncated.

(** Writing a record appends its traces. *)
Theorem C60_write f (data hdrs : Z -> list Z) n1 n2 : 0 <= n1 ->
  f_bytes (writeData f data hdrs n1 n2) =
  f_bytes f ++ file_of (map (fun i => mkTrace (hdrs i) (map (fun j => data (i * n1 + j)) (range 0 n1))) (range 0 n2)).
Proof.
  intros Hn. unfold writeData, file_of. generalize (range 0 n2). intros l. revert f. induction l as [|i l IH]; intros f; [cbn; now rewrite app_nil_r|].
  cbn [fold_left map concat]. rewrite IH. cbn [f_bytes]. rewrite <- app_assoc. f_equal. f_equal. unfold trace_bytes. cbn [t_hdr t_smp]. do 2 f_equal.
  unfold range. rewrite !map_map. replace (i * n1 + n1 - i * n1) with n1 by lia. rewrite Z.sub_0_r. apply map_ext. intros k. f_equal; lia.
Qed.
Print Assumptions C60_write.

(** A record that was written with writeData is read back. *)
Theorem C60_write_read (data hdrs : Z -> list Z) n1 n2 : 0 < n2 -> 0 <= n1 ->
  (forall i, 0 <= i < n2 -> is_trace n1 (mkTrace (hdrs i) (map (fun j => data (i * n1 + j)) (range 0 n1)))) ->
  (forall i, 0 <= i < n2 -> same_shot (mkTrace (hdrs 0) []) (mkTrace (hdrs i) [])) ->
  forall data0 hdrs0, header_array hdrs0 ->
  exists data' hdrs' f', readData (mkFile (f_bytes (writeData (mkFile [] 0) data hdrs n1 n2)) 0) data0 hdrs0 n1 = Ret (n2, data', hdrs', f') /\
    (forall i, 0 <= i < n2 -> hdrs' i = hdrs i) /\ (forall i, 0 <= i < n2 * n1 -> data' i = data i).
Proof.
  intros H2 H1 W S data0 hdrs0 Hh. rewrite C60_write by assumption. cbn [f_bytes app].
  set (g := map _ (range 0 n2)).
  assert (Lg : Z.of_nat (length g) = n2) by (unfold g; rewrite map_length, range_len; lia).
  assert (Ng : forall i, 0 <= i < n2 -> nth_error g (Z.to_nat i) = Some (mkTrace (hdrs i) (map (fun j => data (i * n1 + j)) (range 0 n1)))).
  { intros i Hi. unfold g. rewrite nth_error_map, nth_error_range by lia. cbn [option_map]. replace (0 + Z.of_nat (Z.to_nat i)) with i by lia. reflexivity. }
  destruct (readData_record n1 g [] [] data0 hdrs0) with (n1 := n1) as (data' & hdrs' & E & A1 & A2 & _).
  - intros E. rewrite E in Lg. cbn in Lg. lia.
  - apply Forall_forall. intros t Ht. unfold g in Ht. apply in_map_iff in Ht. destruct Ht as (i & <- & Hi). apply W. apply in_range in Hi. lia.
  - assert (forall a, In a g -> same_shot (mkTrace (hdrs 0) []) a).
    { intros a Ha. unfold g in Ha. apply in_map_iff in Ha. destruct Ha as (i & <- & Hi). apply in_range in Hi. destruct (S i ltac:(lia)) as [X Y]. split; [exact X|exact Y]. }
    intros a b Ha Hb. apply same_shot_trans with (mkTrace (hdrs 0) []); [apply same_shot_sym|]; auto.
  - intros a Ha. now left.
  - apply Hh.
  - now left.
  - rewrite app_nil_r in E. do 3 eexists. split; [change (mkFile (file_of g) 0) with (At [] (file_of g)); rewrite E, Lg; reflexivity|]. split.
    + intros i Hi. specialize (A1 _ _ (Ng i Hi)). rewrite Z2Nat.id in A1 by lia. exact A1.
    + intros i Hi. assert (0 < n1) by nia. pose proof (Z.div_mod i n1 ltac:(lia)) as D. pose proof (Z.mod_pos_bound i n1 ltac:(lia)) as B.
      assert (Hq : 0 <= i / n1 < n2) by (split; [apply Z.div_pos; lia|apply Z.div_lt_upper_bound; lia]).
      specialize (A2 _ _ (Z.to_nat (i mod n1)) (data i) (Ng _ Hq)). cbn [t_smp] in A2. rewrite !Z2Nat.id in A2 by lia.
      replace (i / n1 * n1 + i mod n1) with i in A2 by lia. apply A2. rewrite nth_error_map, nth_error_range by lia. cbn [option_map]. f_equal. f_equal. lia.
Qed.
Print Assumptions C60_write_read.

(** a file of five traces in three records: two shots at different places, the second twice *)
Definition le4 (v : Z) : list Z := [v mod 256; (v / 256) mod 256; (v / 65536) mod 256; (v / 16777216) mod 256].
Definition demo_hdr (fl s g : Z) : list Z :=
  repeat 0 8 ++ le4 fl ++ repeat 0 16 ++ [1; 0] ++ repeat 0 40 ++ [156; 255] ++ le4 s ++ repeat 0 4 ++ le4 g ++ repeat 0 30 ++ [2; 0] ++ [160; 15] ++ repeat 0 122.
Definition demo_trace (fl s g v : Z) : trace := mkTrace (demo_hdr fl s g) [le4 v; le4 (v + 1)].
Definition demo_file : list trace := [demo_trace 1 0 (-500) 10; demo_trace 1 0 500 20; demo_trace 2 1000 500 30; demo_trace 3 1000 500 40; demo_trace 3 1000 1500 50; demo_trace 3 1000 2500 60].
Definition demo_records : list (list trace) :=
  [[demo_trace 1 0 (-500) 10; demo_trace 1 0 500 20]; [demo_trace 2 1000 500 30]; [demo_trace 3 1000 500 40; demo_trace 3 1000 1500 50; demo_trace 3 1000 2500 60]].
Example C60_nonvacuous : Forall (is_trace 2) demo_file /\ records demo_file demo_records.
Proof.
  split.
  - repeat (constructor; [unfold is_trace; split; [reflexivity|]; split; [vm_compute; reflexivity|]; split; [reflexivity|repeat constructor]|]). constructor.
  - assert (E : demo_records = split_records demo_file) by (vm_compute; reflexivity). rewrite E. apply split_records_ok.
Qed.

(** ** C61: file information *)
(** the smallest and largest coordinate of a source or receiver *)
Definition coordinate (ts : list trace) (x : Z) : Prop := exists t, In t ts /\ (x = gx t \/ x = sx t).
Definition smallest (P : Z -> Prop) (m : Z) : Prop := P m /\ forall x, P x -> m <= x.
Definition largest (P : Z -> Prop) (m : Z) : Prop := P m /\ forall x, P x -> x <= m.
(** the mean distance of the receivers of a record *)
Definition distance (g : list trace) (d : Q) : Prop :=
  exists a b, hd_error g = Some a /\ hd_error (rev g) = Some b /\ d = (inject_Z (Z.abs (gx b - gx a)) / inject_Z (Z.of_nat (length g) - 1))%Q.

Lemma lo_le ts : forall m, lo ts m <= m /\ forall x, coordinate ts x -> lo ts m <= x.
Proof.
  induction ts as [|t ts IH]; intros m; cbn [lo fold_left]; [split; [lia|]; intros x (t & [] & _)|].
  destruct (IH (Z.min m (Z.min (gx t) (sx t)))) as [I1 I2]. fold (lo ts (Z.min m (Z.min (gx t) (sx t)))). split; [lia|].
  intros x (u & [<-|Hu] & Hx); [destruct Hx; lia|]. apply I2. now exists u.
Qed.
Lemma lo_in ts : forall m, lo ts m = m \/ coordinate ts (lo ts m).
Proof.
  induction ts as [|t ts IH]; intros m; cbn [lo fold_left]; [now left|]. fold (lo ts (Z.min m (Z.min (gx t) (sx t)))).
  destruct (IH (Z.min m (Z.min (gx t) (sx t)))) as [E|(u & Hu & E)].
  - rewrite E. destruct (Z.min_spec m (Z.min (gx t) (sx t))) as [[_ ->]|[_ ->]]; [now left|right]. exists t. split; [now left|]. lia.
  - right. exists u. split; [now right|assumption].
Qed.
Lemma hi_ge ts : forall m, m <= hi ts m /\ forall x, coordinate ts x -> x <= hi ts m.
Proof.
  induction ts as [|t ts IH]; intros m; cbn [hi fold_left]; [split; [lia|]; intros x (t & [] & _)|].
  destruct (IH (Z.max m (Z.max (gx t) (sx t)))) as [I1 I2]. fold (hi ts (Z.max m (Z.max (gx t) (sx t)))). split; [lia|].
  intros x (u & [<-|Hu] & Hx); [destruct Hx; lia|]. apply I2. now exists u.
Qed.
Lemma hi_in ts : forall m, hi ts m = m \/ coordinate ts (hi ts m).
Proof.
  induction ts as [|t ts IH]; intros m; cbn [hi fold_left]; [now left|]. fold (hi ts (Z.max m (Z.max (gx t) (sx t)))).
  destruct (IH (Z.max m (Z.max (gx t) (sx t)))) as [E|(u & Hu & E)].
  - rewrite E. destruct (Z.max_spec m (Z.max (gx t) (sx t))) as [[_ ->]|[_ ->]]; [right|now left]. exists t. split; [now left|]. lia.
  - right. exists u. split; [now right|assumption].
Qed.
Lemma last_rev (g : list trace) t : hd_error (rev (t :: g)) = Some (last g t).
Proof. revert t. induction g as [|u g IH]; intros t; [reflexivity|]. change (rev (t :: u :: g)) with (rev (u :: g) ++ [t]). specialize (IH u). destruct (rev (u :: g)) as [|x r]; [discriminate|]. cbn [app hd_error] in *. rewrite IH. f_equal. symmetry. apply last_shift. Qed.

(** the time axis as stored in the first header *)
Definition time_axis (f32 : list Z -> Q) (t : trace) (d1 f1 : Q) : Prop :=
  if (trid t =? 1) && negb (dt t =? 0) then d1 = (inject_Z (dt t) * (1 # 1000000))%Q /\ f1 = (inject_Z (delrt t) / inject_Z 1000)%Q
  else d1 = f32 (bytes_of 181 184 (t_hdr t)) /\ f1 = f32 (bytes_of 185 188 (t_hdr t)).

Section C61.
Variables (f32 : list Z -> Q) (n : Z) (t : trace) (ts : list trace) (gs : list (list trace)).
Hypothesis F : Forall (is_trace n) (t :: ts).
Hypothesis R : records (t :: ts) gs.
Let f0 := mkFile (file_of (t :: ts)) 0.

Lemma Ht : is_trace n t. Proof. exact (Forall_inv F). Qed.
Lemma Hn0 : 0 <= n. Proof. destruct Ht as (_ & _ & L & _). lia. Qed.
Lemma f32_bytes off : (off + 4 <= 240)%nat -> f32at f32 off (t_hdr t) = f32 (bytes_of (off + 1) (off + 4) (t_hdr t)).
Proof.
  intros H. unfold f32at, bytes_of. f_equal. replace (off + 4 + 1 - (off + 1))%nat with 4%nat by lia. symmetry. apply window_nth. rewrite (is_trace_len n t Ht). lia.
Qed.
Lemma first_record : exists g gs' rest, gs = (t :: g) :: gs' /\ t :: ts = (t :: g) ++ rest /\ Forall (same_shot t) g /\ begins_other t rest.
Proof.
  destruct gs as [|g gs']; [apply records_nil in R; discriminate|]. apply records_cons in R. destruct R as (rest & E & _ & Ne & S1 & S2).
  destruct g as [|t' g]; [congruence|]. cbn in E. injection E as <- E. exists g, gs', rest. conjs; try reflexivity.
  - cbn. now rewrite E.
  - apply Forall_forall. intros x Hx. apply S1; [now left|now right].
  - destruct rest as [|b r]; cbn; [exact I|]. apply (S2 t b r); [now left|reflexivity].
Qed.
Lemma info_start ngath hdr0 : length hdr0 = 240%nat -> exists g gs' rest, gs = (t :: g) :: gs' /\ t :: ts = (t :: g) ++ rest /\
  getFileInfo f32 f0 hdr0 ngath =
  let scl := factor (scalco t) in
  let hdr1 := t_hdr (hd (last g t) rest) in
  let itrace := Z.of_nat (S (length g)) in
  let timed := (trid t =? 1) && negb (dt t =? 0) in
  let d1 := if timed then (inject_Z (dt t) * (1 # 1000000))%Q else f32at f32 at_d1 (t_hdr t) in
  let f1 := if timed then (inject_Z (delrt t) / inject_Z 1000)%Q else f32at f32 at_f1 (t_hdr t) in
  let f2 := f32at f32 at_f2 (t_hdr t) in
  let dxrcv := (inject_Z (gx (last g t) - gx t) / inject_Z (itrace - 1))%Q in
  let '(n2, d2) :=
      if 1 <? itrace then
        (itrace,
         if negb (NINT (dxrcv * 1000) =? NINT (Qabs (f32at f32 at_d2 hdr1) * 1000)) then
           if Qeq_bool dxrcv 0 then f32at f32 at_d2 hdr1 else (Qabs dxrcv * scl)%Q
         else (Qabs dxrcv * scl)%Q)
      else (Z.max (h_trwf hdr1) 1, f32at f32 at_d2 hdr1) in
  if ngath =? 0 then
    match info_shots (S (length (f_bytes f0))) (4 * n) hdr1 0 0 (mkScan (gx t) (gx t) d2) (fseek_set 0 f0) with
    | Ret (igath, n2, s) => Ret (mkInfo n n2 igath d1 (s_dxrcv s * scl)%Q f1 f2 (inject_Z (s_xmin s) * scl)%Q (inject_Z (s_xmax s) * scl)%Q scl (f_size f0 / (4 * n + TRCBYTES)))
    | Abort => Abort
    | Endless => Endless
    end
  else
    let '(hb, _, _) := fread 1 TRCBYTES (fseek_end (- (4 * n + TRCBYTES)) f0) in
    let s := extremes (overlay hdr1 hb) (mkScan (gx t) (gx t) d2) in
    Ret (mkInfo n n2 (f_size f0 / (4 * n + TRCBYTES) / n2) d1 d2 f1 f2 (inject_Z (s_xmin s) * scl)%Q (inject_Z (s_xmax s) * scl)%Q scl (f_size f0 / (4 * n + TRCBYTES))).
Proof.
  intros L0. destruct first_record as (g & gs' & rest & Eg & Et & S1 & S2). exists g, gs', rest. split; [exact Eg|]. split; [exact Et|].
  pose proof Ht as Ht. pose proof (is_trace_len n t Ht) as Lt. pose proof Hn0 as Hn.
  unfold getFileInfo. change f0 with (At [] (file_of (t :: ts))) at 1. rewrite file_of_cons at 1. rewrite (fread_full 1 TRCBYTES) by (try (unfold TRCBYTES; lia); apply (trc_len n t Ht)).
  rewrite Z.eqb_refl. cbn [negb]. rewrite overlay_full by lia.
  rewrite (w_ns t Lt), (proj1 (proj2 Ht)), (w_trid t Lt), (w_dt t Lt), (w_delrt t Lt), (w_scalco t Lt), scale_factor, (w_sx t Lt), (w_fldr t Lt), (w_gx t Lt).
  assert (Es : fseek_set TRCBYTES f0 = At (t_hdr t) (concat (t_smp t) ++ file_of (g ++ rest))).
  { unfold fseek_set, fseek_to, f0, At. cbn [f_bytes]. injection Et as Et. rewrite file_of_cons, Et, Lt. reflexivity. }
  rewrite Es. rewrite (info_first_ok n t g t _ 0 (t_hdr t) rest Hn); [cbn [Z.add]; rewrite ?Z.add_0_l; reflexivity| | | |assumption|assumption].
  - unfold f0. cbn [f_bytes]. assert (length (t :: ts) <= length (file_of (t :: ts)))%nat by (apply file_of_len; revert F; apply Forall_impl; intros ? (H & _); exact H).
    apply (f_equal (@length trace)) in Et. rewrite app_length in Et. cbn [length] in *. lia.
  - assert (F' := F). rewrite Et in F'. apply Forall_app in F'. tauto.
  - assert (F' := F). rewrite Et in F'. apply Forall_app in F'. tauto.
Qed.
Lemma ntraces_ok : f_size f0 / (4 * n + TRCBYTES) = Z.of_nat (length (t :: ts)).
Proof. pose proof Hn0. unfold f_size, f0. cbn [f_bytes]. rewrite (size_of_file n _ F). unfold TRCBYTES. apply Z.div_mul. lia. Qed.

Theorem scan_info hdr0 : length hdr0 = 240%nat -> exists i lo hi,
  getFileInfo f32 f0 hdr0 0 = Ret i /\ i_n1 i = n /\ i_nxm i = Z.of_nat (length (t :: ts)) /\ i_ngath i = Z.of_nat (length gs) /\
  i_n2 i = (if 1 <? longest gs then longest gs else 0) /\
  i_scl i = factor (scalco t) /\ time_axis f32 t (i_d1 i) (i_f1 i) /\ i_f2 i = f32 (bytes_of 193 196 (t_hdr t)) /\
  smallest (coordinate (t :: ts)) lo /\ i_xmin i = (inject_Z lo * factor (scalco t))%Q /\
  largest (coordinate (t :: ts)) hi /\ i_xmax i = (inject_Z hi * factor (scalco t))%Q /\
  (forall l g r, gs = l ++ g :: r -> (1 < length g)%nat -> Forall (fun h => length h = 1%nat) r -> exists d, distance g d /\ i_d2 i = (d * factor (scalco t))%Q).
Proof.
  intros L0. destruct (info_start 0 hdr0 L0) as (g & gs' & rest & Eg & Et & E). cbn [Z.eqb] in E.
  match type of E with context [let '(_, _) := ?p in _] => destruct p as [n2 d2] eqn:Ep end.
  assert (L1 : length (t_hdr (hd (last g t) rest)) = 240%nat).
  { assert (F' := F). rewrite Et in F'. apply Forall_app in F'. destruct F' as [F1 F2]. destruct rest as [|r rest]; cbn [hd].
    - assert (In (last g t) (t :: g)). { destruct g as [|u g]; [now left|]. right. rewrite last_shift. clear. revert u. induction g as [|v g IH]; intros u; [now left|]. rewrite last_shift. right. apply IH. }
      rewrite Forall_forall in F1. exact (is_trace_len n _ (F1 _ H)).
    - exact (is_trace_len n r (Forall_inv F2)). }
  destruct (info_shots_ok n Hn0 gs (t :: ts) (S (length (f_bytes f0))) (t_hdr (hd (last g t) rest)) 0 0 (mkScan (gx t) (gx t) d2) []) as (s & Es & (X1 & X2) & X3); try assumption.
  { unfold f0. cbn [f_bytes]. assert (length (t :: ts) <= length (file_of (t :: ts)))%nat by (apply file_of_len; revert F; apply Forall_impl; intros ? (H & _); exact H).
    destruct R as (Ec & Fc & _). assert (length gs <= length (t :: ts))%nat; [|lia]. rewrite <- Ec. clear - Fc. induction Fc as [|h gs (N & _) _ IH]; [cbn; lia|]. cbn [concat length]. rewrite app_length. destruct h; [congruence|]. cbn [length]. lia. }
  change (At [] (file_of (t :: ts))) with f0 in Es. change (fseek_set 0 f0) with f0 in E. rewrite Es in E.
  cbv zeta in E. eexists. exists (s_xmin s), (s_xmax s). split; [exact E|].
  cbn [i_n1 i_nxm i_ngath i_n2 i_scl i_d1 i_f1 i_f2 i_xmin i_xmax i_d2]. cbn [s_xmin s_xmax s_dxrcv] in X1, X2, X3. conjs; try reflexivity.
  - apply ntraces_ok.
  - assert (Fg : Forall (fun g => g <> []) gs) by (destruct R as (_ & Fc & _); revert Fc; apply Forall_impl; intros ? (H & _); exact H).
    pose proof (longest_nonneg gs). rewrite (n2_longest gs 0) by (try assumption; lia). destruct (1 <? longest gs); lia.
  - unfold time_axis. destruct ((trid t =? 1) && negb (dt t =? 0)); split; try reflexivity; unfold at_d1, at_f1; now rewrite f32_bytes by lia.
  - unfold at_f2. now rewrite f32_bytes by lia.
  - rewrite X1. split.
    + destruct (lo_in (t :: ts) (gx t)) as [->|H]; [|exact H]. exists t. split; [now left|now left].
    + apply lo_le.
  - rewrite X2. split.
    + destruct (hi_in (t :: ts) (gx t)) as [->|H]; [|exact H]. exists t. split; [now left|now left].
    + apply hi_ge.
  - intros l h r El Lh Fr. exists (spread h). split.
    + destruct h as [|a h]; [cbn in Lh; lia|]. exists a, (last h a). split; [reflexivity|]. split; [apply last_rev|reflexivity].
    + f_equal. rewrite X3, El. unfold dx_of. rewrite fold_left_app. cbn [fold_left].
      replace (1 <? glen h) with true by (symmetry; apply Z.ltb_lt; unfold glen; lia).
      clear - Fr. generalize (spread h). induction Fr as [|x r Hx Fr IH]; intros q; [reflexivity|]. cbn [fold_left].
      replace (1 <? glen x) with false by (symmetry; apply Z.ltb_ge; unfold glen; lia). apply IH.
Qed.
Theorem fixed_info hdr0 ngath m : length hdr0 = 240%nat -> ngath <> 0 -> (1 < m)%nat -> Forall (fun g => length g = m) gs -> exists i,
  getFileInfo f32 f0 hdr0 ngath = Ret i /\ i_n1 i = n /\ i_nxm i = Z.of_nat (length (t :: ts)) /\ i_n2 i = Z.of_nat m /\ i_ngath i = Z.of_nat (length gs) /\
  i_scl i = factor (scalco t) /\ time_axis f32 t (i_d1 i) (i_f1 i) /\ i_f2 i = f32 (bytes_of 193 196 (t_hdr t)) /\
  (forall u, hd_error (rev (t :: ts)) = Some u ->
    i_xmin i = (inject_Z (Z.min (Z.min (gx u) (gx t)) (sx u)) * factor (scalco t))%Q /\ i_xmax i = (inject_Z (Z.max (Z.max (gx u) (gx t)) (sx u)) * factor (scalco t))%Q) /\
  (forall g gs' b, gs = g :: gs' -> hd_error (rev g) = Some b -> gx b <> gx t -> exists d, distance g d /\ (i_d2 i == d * factor (scalco t))%Q).
Proof.
  intros L0 Hg Hm Fm. destruct (info_start ngath hdr0 L0) as (g & gs' & rest & Eg & Et & E).
  replace (ngath =? 0) with false in E by (symmetry; now apply Z.eqb_neq).
  assert (Lg : S (length g) = m) by (rewrite Eg in Fm; exact (Forall_inv Fm)).
  cbv zeta in E. replace (1 <? Z.of_nat (S (length g))) with true in E by (symmetry; apply Z.ltb_lt; lia).
  assert (Len : Z.of_nat (length (t :: ts)) = Z.of_nat m * Z.of_nat (length gs)).
  { destruct R as (<- & _). clear - Fm. induction Fm as [|h gs Hh Fm IH]; [cbn; lia|]. cbn [concat]. rewrite app_length. cbn [length]. lia. }
  assert (exists init u, t :: ts = init ++ [u]) as (init & u & Eu).
  { destruct (exists_last (l := t :: ts)) as (init & u & Eu); [discriminate|]. now exists init, u. }
  assert (Hu : is_trace n u) by (assert (F' := F); rewrite Eu in F'; apply Forall_app in F'; destruct F' as [_ F']; exact (Forall_inv F')).
  assert (L1 : length (t_hdr (hd (last g t) rest)) = 240%nat).
  { assert (F' := F). rewrite Et in F'. apply Forall_app in F'. destruct F' as [F1 F2]. destruct rest as [|r rest]; cbn [hd].
    - assert (In (last g t) (t :: g)). { destruct g as [|v g]; [now left|]. right. rewrite last_shift. clear. revert v. induction g as [|w g IH]; intros v; [now left|]. rewrite last_shift. right. apply IH. }
      rewrite Forall_forall in F1. exact (is_trace_len n _ (F1 _ H)).
    - exact (is_trace_len n r (Forall_inv F2)). }
  assert (Ef : fseek_end (- (4 * n + TRCBYTES)) f0 = At (file_of init) (t_hdr u ++ concat (t_smp u))).
  { pose proof Hn0. unfold fseek_end, fseek_to, f_size, f0, At. cbn [f_bytes]. rewrite Eu, file_of_app, app_length, Nat2Z.inj_add.
    rewrite (size_of_file n [u]) by (constructor; [assumption|constructor]). cbn [length]. unfold TRCBYTES.
    replace (Z.of_nat (length (file_of init)) + Z.of_nat 1 * (4 * n + 240) + - (4 * n + 240)) with (Z.of_nat (length (file_of init))) by lia.
    destruct (Z.ltb_spec (Z.of_nat (length (file_of init))) 0); [lia|]. rewrite file_of_cons, file_of_nil, app_nil_r. reflexivity. }
  rewrite Ef in E. rewrite (fread_full 1 TRCBYTES) in E by (try (unfold TRCBYTES; lia); apply (trc_len n u Hu)).
  cbv beta iota zeta in E. rewrite overlay_full in E by (rewrite (is_trace_len n u Hu); lia). rewrite ntraces_ok in E.
  cbv zeta in E. eexists. split; [exact E|].
  cbn [i_n1 i_nxm i_ngath i_n2 i_scl i_d1 i_f1 i_f2 i_xmin i_xmax i_d2]. conjs; try reflexivity.
  - lia.
  - rewrite Len, Lg, Z.mul_comm. apply Z.div_mul. lia.
  - unfold time_axis. destruct ((trid t =? 1) && negb (dt t =? 0)); split; try reflexivity; unfold at_d1, at_f1; now rewrite f32_bytes by lia.
  - unfold at_f2. now rewrite f32_bytes by lia.
  - intros u' Eu'. rewrite Eu, rev_app_distr in Eu'. injection Eu' as <-. unfold extremes. cbn [s_xmin s_xmax].
    rewrite (w_gx u (is_trace_len n u Hu)), (w_sx u (is_trace_len n u Hu)). split; reflexivity.
  - intros g0 gs0 b E0 Eb Nb. rewrite Eg in E0. injection E0 as <- <-. rewrite last_rev in Eb. injection Eb as <-.
    exists (spread (t :: g)). split; [exists t, (last g t); split; [reflexivity|]; split; [apply last_rev|reflexivity]|].
    assert (Q0 : forall k, 0 < k -> (Qabs (inject_Z (gx (last g t) - gx t) / inject_Z k) == inject_Z (Z.abs (gx (last g t) - gx t)) / inject_Z k)%Q).
    { intros k Hk. unfold Qdiv. rewrite Qabs_Qmult. assert (E1 : (Qabs (/ inject_Z k) == / inject_Z k)%Q). { apply Qabs_pos. apply Qinv_le_0_compat. change 0%Q with (inject_Z 0). rewrite <- Zle_Qle. lia. }
      rewrite E1. reflexivity. }
    assert (D : (Qabs (inject_Z (gx (last g t) - gx t) / inject_Z (Z.of_nat (S (length g)) - 1)) * factor (scalco t) == spread (t :: g) * factor (scalco t))%Q).
    { rewrite Q0 by lia. unfold spread, glen. cbn [length]. reflexivity. }
    assert (NZ : Qeq_bool (inject_Z (gx (last g t) - gx t) / inject_Z (Z.of_nat (S (length g)) - 1)) 0 = false).
    { apply not_true_iff_false. intros H. apply Qeq_bool_iff in H. apply Nb.
      assert (Hk : ~ (inject_Z (Z.of_nat (S (length g)) - 1) == 0)%Q) by (change 0%Q with (inject_Z 0); rewrite inject_Z_injective; lia).
      assert (X : (inject_Z (gx (last g t) - gx t) == 0)%Q). { rewrite <- (Qmult_div_r (inject_Z (gx (last g t) - gx t)) _ Hk). rewrite H. ring. }
      unfold Qeq, inject_Z in X. cbn [Qnum Qden] in X. lia. }
    rewrite NZ. match goal with |- context [NINT ?a =? NINT ?b] => destruct (NINT a =? NINT b) end; cbn [negb]; exact D.
Qed.
End C61.

(** Scanning a file (ngath = 0 on entry): the numbers of samples, traces and shot records, the largest
    record, the time axis, the extreme coordinates and the distance of the receivers. *)
Theorem C61_scan f32 n t ts gs hdr0 : Forall (is_trace n) (t :: ts) -> records (t :: ts) gs -> length hdr0 = 240%nat -> exists i lo hi,
  getFileInfo f32 (mkFile (file_of (t :: ts)) 0) hdr0 0 = Ret i /\ i_n1 i = n /\ i_nxm i = Z.of_nat (length (t :: ts)) /\ i_ngath i = Z.of_nat (length gs) /\
  i_n2 i = (if 1 <? longest gs then longest gs else 0) /\
  i_scl i = factor (scalco t) /\ time_axis f32 t (i_d1 i) (i_f1 i) /\ i_f2 i = f32 (bytes_of 193 196 (t_hdr t)) /\
  smallest (coordinate (t :: ts)) lo /\ i_xmin i = (inject_Z lo * factor (scalco t))%Q /\
  largest (coordinate (t :: ts)) hi /\ i_xmax i = (inject_Z hi * factor (scalco t))%Q /\
  (forall l g r, gs = l ++ g :: r -> (1 < length g)%nat -> Forall (fun h => length h = 1%nat) r -> exists d, distance g d /\ i_d2 i = (d * factor (scalco t))%Q).
Proof. intros F R L. exact (scan_info f32 n t ts gs F R hdr0 L). Qed.
Print Assumptions C61_scan.

(** With the number of records given (ngath <> 0 on entry) only the first record and the last trace
    are looked at; that is right when all records have the same number of traces. *)
Theorem C61_equal_records f32 n t ts gs hdr0 ngath m : Forall (is_trace n) (t :: ts) -> records (t :: ts) gs ->
  length hdr0 = 240%nat -> ngath <> 0 -> (1 < m)%nat -> Forall (fun g => length g = m) gs -> exists i,
  getFileInfo f32 (mkFile (file_of (t :: ts)) 0) hdr0 ngath = Ret i /\ i_n1 i = n /\ i_nxm i = Z.of_nat (length (t :: ts)) /\ i_n2 i = Z.of_nat m /\ i_ngath i = Z.of_nat (length gs) /\
  i_scl i = factor (scalco t) /\ time_axis f32 t (i_d1 i) (i_f1 i) /\ i_f2 i = f32 (bytes_of 193 196 (t_hdr t)) /\
  (forall u, hd_error (rev (t :: ts)) = Some u ->
    i_xmin i = (inject_Z (Z.min (Z.min (gx u) (gx t)) (sx u)) * factor (scalco t))%Q /\ i_xmax i = (inject_Z (Z.max (Z.max (gx u) (gx t)) (sx u)) * factor (scalco t))%Q) /\
  (forall g gs' b, gs = g :: gs' -> hd_error (rev g) = Some b -> gx b <> gx t -> exists d, distance g d /\ (i_d2 i == d * factor (scalco t))%Q).
Proof. intros F R L H1 H2 H3. exact (fixed_info f32 n t ts gs F R hdr0 ngath m L H1 H2 H3). Qed.
Print Assumptions C61_equal_records.

(** The number of traces per record found by the scan is room enough for every record read later,
    unless all records have a single trace. *)
Theorem C61_room f32 n t ts gs hdr0 i : Forall (is_trace n) (t :: ts) -> records (t :: ts) gs -> length hdr0 = 240%nat ->
  getFileInfo f32 (mkFile (file_of (t :: ts)) 0) hdr0 0 = Ret i -> (exists g, In g gs /\ (1 < length g)%nat) ->
  reading n (i_n1 i) (mkFile (file_of (t :: ts)) 0) gs End /\ i_ngath i = Z.of_nat (length gs) /\ forall g, In g gs -> Z.of_nat (length g) <= i_n2 i.
Proof.
  intros F R L E (g & Hg & Lg). destruct (scan_info f32 n t ts gs F R hdr0 L) as (i' & l & h & E' & E1 & _ & E3 & E4 & _).
  rewrite E in E'. injection E' as <-. rewrite E1, E3, E4. split; [apply C60_read_records; try assumption; now left|]. split; [reflexivity|].
  intros g' Hg'. pose proof (longest_in gs g' Hg'). pose proof (longest_in gs g Hg). destruct (Z.ltb_spec 1 (longest gs)); lia.
Qed.
Print Assumptions C61_room.

(** Files whose records have a single trace are reported to have no traces per record. *)
Theorem C61_single_refuted : exists f32 n t ts gs hdr0 i, Forall (is_trace n) (t :: ts) /\ records (t :: ts) gs /\ length hdr0 = 240%nat /\
  getFileInfo f32 (mkFile (file_of (t :: ts)) 0) hdr0 0 = Ret i /\ Forall (fun g => length g = 1%nat) gs /\ i_n2 i = 0.
Proof.
  exists (fun _ => 0%Q), 2, (demo_trace 1 0 500 10), [demo_trace 2 0 500 20], [[demo_trace 1 0 500 10]; [demo_trace 2 0 500 20]], (repeat 0 240).
  assert (F : Forall (is_trace 2) [demo_trace 1 0 500 10; demo_trace 2 0 500 20]).
  { repeat (constructor; [unfold is_trace; split; [reflexivity|]; split; [vm_compute; reflexivity|]; split; [reflexivity|repeat constructor]|]). constructor. }
  assert (R : records [demo_trace 1 0 500 10; demo_trace 2 0 500 20] [[demo_trace 1 0 500 10]; [demo_trace 2 0 500 20]]).
  { assert (E : [[demo_trace 1 0 500 10]; [demo_trace 2 0 500 20]] = split_records [demo_trace 1 0 500 10; demo_trace 2 0 500 20]) by (vm_compute; reflexivity). rewrite E. apply split_records_ok. }
  destruct (C61_scan (fun _ => 0%Q) 2 _ _ _ (repeat 0 240) F R eq_refl) as (i & l & h & E & _ & _ & _ & E4 & _). exists i.
  split; [exact F|]. split; [exact R|]. split; [reflexivity|]. split; [exact E|]. split; [repeat constructor|]. rewrite E4. reflexivity.
Qed.
Print Assumptions C61_single_refuted.

Example C61_nonvacuous : exists i, getFileInfo (fun _ => 0%Q) (mkFile (file_of demo_file) 0) (repeat 0 240) 0 = Ret i /\
  i_n1 i = 2 /\ i_n2 i = 3 /\ i_ngath i = 3 /\ i_nxm i = 6 /\ (i_d2 i == 10)%Q /\ (i_xmin i == - (5))%Q /\ (i_xmax i == 25)%Q /\ (i_d1 i == 4 # 1000)%Q.
Proof.
  destruct C60_nonvacuous as [F R]. destruct (C61_scan (fun _ => 0%Q) 2 _ _ _ (repeat 0 240) F R eq_refl) as (i & l & h & E & E1 & E2 & E3 & E4 & E5 & E6 & E7 & E8 & E9 & E10 & E11 & E12).
  exists i. assert (S : factor (scalco (demo_trace 1 0 (-500) 10)) = (1 / inject_Z 100)%Q) by (vm_compute; reflexivity). rewrite S in *.
  split; [exact E|]. split; [exact E1|]. split; [rewrite E4; reflexivity|]. split; [rewrite E3; reflexivity|]. split; [rewrite E2; reflexivity|].
  assert (L : l = -500).
  { destruct E8 as [(t & Ht & Hx) B]. assert (l <= -500) by (apply B; exists (demo_trace 1 0 (-500) 10); split; [now left|left; vm_compute; reflexivity]).
    assert (forall t, In t demo_file -> -500 <= gx t /\ -500 <= sx t). { intros u Hu. cbn [demo_file In] in Hu. repeat (destruct Hu as [<-|Hu]; [vm_compute; split; discriminate|]). destruct Hu. }
    destruct (H0 t Ht). destruct Hx; lia. }
  assert (U : h = 2500).
  { destruct E10 as [(t & Ht & Hx) B]. assert (2500 <= h) by (apply B; exists (demo_trace 3 1000 2500 60); split; [do 5 right; now left|left; vm_compute; reflexivity]).
    assert (forall t, In t demo_file -> gx t <= 2500 /\ sx t <= 2500). { intros u Hu. cbn [demo_file In] in Hu. repeat (destruct Hu as [<-|Hu]; [vm_compute; split; discriminate|]). destruct Hu. }
    destruct (H0 t Ht). destruct Hx; lia. }
  subst l h. split.
  { destruct (E12 (firstn 2 demo_records) (nth 2 demo_records []) []) as (d & (a & b & Ea & Eb & Ed) & ->); [reflexivity|cbn; lia|constructor|].
    injection Ea as <-. injection Eb as <-. subst d. vm_compute. reflexivity. }
  split; [rewrite E9; vm_compute; reflexivity|]. split; [rewrite E11; vm_compute; reflexivity|].
  unfold time_axis in E6. replace ((trid (demo_trace 1 0 (-500) 10) =? 1) && negb (dt (demo_trace 1 0 (-500) 10) =? 0)) with true in E6 by (vm_compute; reflexivity).
  destruct E6 as [-> _]. vm_compute. reflexivity.
Qed.

(** ** C62: positions of the shots, reciprocal traces *)
(** The arrays of positions hold source and receivers of every record; nothing else is touched.
    nx is the number of traces per record for which there is room. *)
Theorem C62_positions n t ts gs nx hdr0 s : Forall (is_trace n) (t :: ts) -> records (t :: ts) gs -> length hdr0 = 240%nat -> (forall g, In g gs -> Z.of_nat (length g) <= nx) ->
  exists s', readShots (mkFile (file_of (t :: ts)) 0) hdr0 nx s = Ret (Z.of_nat (length gs), s') /\
    (forall k g a, nth_error gs k = Some g -> In a g ->
       isx s' (Z.of_nat k) = sx a /\ xsrc s' (Z.of_nat k) = (inject_Z (sx a) * factor (scalco t))%Q /\ xnx s' (Z.of_nat k) = Z.of_nat (length g)) /\
    (forall k g a, nth_error gs k = Some g -> hd_error g = Some a -> zsrc s' (Z.of_nat k) = (inject_Z (selev a) * factor (scalel t))%Q) /\
    (forall k g l a, nth_error gs k = Some g -> nth_error g l = Some a ->
       igx s' (Z.of_nat k * nx + Z.of_nat l) = gx a /\ xrcv s' (Z.of_nat k * nx + Z.of_nat l) = (inject_Z (gx a) * factor (scalco t))%Q) /\
    (forall i, ~ 0 <= i < Z.of_nat (length gs) -> isx s' i = isx s i /\ xsrc s' i = xsrc s i /\ zsrc s' i = zsrc s i /\ xnx s' i = xnx s i) /\
    (forall i, ~ 0 <= i < Z.of_nat (length gs) * nx -> igx s' i = igx s i /\ xrcv s' i = xrcv s i).
Proof.
  intros F R L0 Hx. pose proof (Forall_inv F) as Ht. pose proof (is_trace_len n t Ht) as Lt.
  unfold readShots. change (fseek_set 0 (mkFile (file_of (t :: ts)) 0)) with (At [] (file_of (t :: ts))).
  assert (Ef : exists f', fread 1 TRCBYTES (At [] (file_of (t :: ts))) = (t_hdr t, TRCBYTES, f')).
  { rewrite file_of_cons. rewrite (fread_full 1 TRCBYTES) by (try (unfold TRCBYTES; lia); apply (trc_len n t Ht)). eauto. }
  destruct Ef as (f' & Ef). rewrite Ef. clear Ef f'.
  rewrite Z.eqb_refl. cbn [negb]. rewrite overlay_full by lia. rewrite (w_ns t Lt), (proj1 (proj2 Ht)), (w_scalco t Lt), (w_scalel t Lt), !scale_factor.
  destruct (read_shots_ok n nx (factor (scalco t)) (factor (scalel t)) (Hn0 n t ts F) gs (t :: ts) (S (length (f_bytes (mkFile (file_of (t :: ts)) 0)))) (t_hdr t) 0 s []) as (s' & E & P1 & P2 & P3 & P4); try assumption.
  - cbn [f_bytes]. assert (length (t :: ts) <= length (file_of (t :: ts)))%nat by (apply file_of_len; revert F; apply Forall_impl; intros ? (H & _); exact H).
    destruct R as (Ec & Fc & _). assert (length gs <= length (t :: ts))%nat; [|lia]. rewrite <- Ec. clear - Fc. induction Fc as [|h gs (N & _) _ IH]; [cbn; lia|]. cbn [concat length]. rewrite app_length. destruct h; [congruence|]. cbn [length]. lia.
  - destruct gs as [|g gs']; [apply records_nil in R; discriminate|]. specialize (Hx g (or_introl eq_refl)). lia.
  - apply Forall_forall. exact Hx.
  - exists s'. split; [rewrite E; reflexivity|]. cbn [Z.add] in *. conjs.
    + intros k g a Ek Ha. destruct g as [|b g]; [destruct Ha|]. destruct (P1 k (b :: g) b Ek eq_refl) as (A1 & A2 & A3 & A4).
      assert (S : same_shot b a). { destruct R as (_ & Fc & _). rewrite Forall_forall in Fc. apply (Fc (b :: g)); [now apply nth_error_In in Ek|now left|assumption]. }
      destruct S as [S _]. rewrite <- S. conjs; assumption.
    + intros k g a Ek Ea. now destruct (P1 k g a Ek Ea) as (_ & _ & A3 & _).
    + intros k g l a Ek Ea. now apply (P2 k g l a).
    + exact P3.
    + exact P4.
Qed.
Print Assumptions C62_positions.

Example C62_positions_nonvacuous : exists s', readShots (mkFile (file_of demo_file) 0) (repeat 0 240) 3 (mkShots (fun _ => 0) (fun _ => 0) (fun _ => 0%Q) (fun _ => 0%Q) (fun _ => 0%Q) (fun _ => 0)) = Ret (3, s') /\
  igx s' 0 = -500 /\ igx s' 1 = 500 /\ igx s' 8 = 2500 /\ isx s' 1 = 1000 /\ xnx s' 2 = 3 /\ (xrcv s' 8 == 25)%Q.
Proof.
  destruct C60_nonvacuous as [F R]. destruct (C62_positions 2 _ _ _ 3 (repeat 0 240) (mkShots (fun _ => 0) (fun _ => 0) (fun _ => 0%Q) (fun _ => 0%Q) (fun _ => 0%Q) (fun _ => 0)) F R eq_refl) as (s' & E & P1 & _ & P2 & _).
  { intros g Hg. cbn [demo_records In] in Hg. repeat (destruct Hg as [<-|Hg]; [vm_compute; discriminate|]). destruct Hg. }
  exists s'. split; [exact E|].
  destruct (P2 0%nat _ 0%nat _ eq_refl eq_refl) as [A1 _]. destruct (P2 0%nat _ 1%nat _ eq_refl eq_refl) as [A2 _]. destruct (P2 2%nat _ 2%nat _ eq_refl eq_refl) as [A3 A4].
  destruct (P1 1%nat _ _ eq_refl (or_introl eq_refl)) as (B1 & _ & _). destruct (P1 2%nat _ _ eq_refl (or_introl eq_refl)) as (_ & _ & B2).
  split; [etransitivity; [exact A1|vm_compute; reflexivity]|]. split; [etransitivity; [exact A2|vm_compute; reflexivity]|]. split; [etransitivity; [exact A3|vm_compute; reflexivity]|].
  split; [etransitivity; [exact B1|vm_compute; reflexivity]|]. split; [exact B2|]. change (Z.of_nat 2 * 3 + Z.of_nat 2) with 8 in A4. rewrite A4. vm_compute. reflexivity.
Qed.

(** The tables list, for every place on the grid, the traces recorded there, in order; with reci=1
    only those whose reciprocal was not recorded.  Places at which a source stands as well get the
    weight 1/2.  There must be room for the traces: nxs per place. *)
Theorem C62_reciprocity opt nshots nx nxs fxsb dxs s t0 :
  let place k l := NINT ((xrcv s (k * nx + l) - fxsb) / dxs) in
  0 <= nxs -> (forall b, 0 <= b < nxs -> r_count t0 b = 0) ->
  (forall b L, 0 <= b < nxs -> reciprocal nshots nx (xnx s) (isx s) (igx s) place opt b L -> Z.of_nat (length L) <= nxs) ->
  exists t nreci, reciprocity opt nshots nx nxs fxsb dxs s t0 = (t, nreci) /\
  (forall b, 0 <= b < nxs -> exists L, reciprocal nshots nx (xnx s) (isx s) (igx s) place opt b L /\
     r_count t b = Z.of_nat (length L) /\
     (forall j k l, nth_error L j = Some (k, l) -> r_rcv t (b * nxs + Z.of_nat j) = k /\ r_src t (b * nxs + Z.of_nat j) = l) /\
     ((opt = 1 /\ exists k l m, In (k, l) L /\ 0 <= m < nshots /\ isx s m = igx s (k * nx + l)) -> r_mask t b = (1 # 2)%Q) /\
     (~ (opt = 1 /\ exists k l m, In (k, l) L /\ 0 <= m < nshots /\ isx s m = igx s (k * nx + l)) -> r_mask t b = 1%Q)) /\
  (forall i, ~ 0 <= i < nxs * nxs -> r_rcv t i = r_rcv t0 i /\ r_src t i = r_src t0 i) /\ (forall b, ~ 0 <= b < nxs -> r_count t b = r_count t0 b /\ r_mask t b = r_mask t0 b) /\
  exists used, NoDup used /\ nreci = Z.of_nat (length used) /\ forall b, In b used <-> 0 <= b < nxs /\ r_count t b <> 0.
Proof.
  intros place Hn C0 Room. unfold reciprocity.
  set (t1 := mkReci _ _ _ _). rewrite (fold_all (fun t k l => reci_trace opt nshots nx nxs fxsb dxs s k l t)). fold (all_traces nshots (xnx s)).
  assert (E : forall P t, fold_left (fun t p => reci_trace opt nshots nx nxs fxsb dxs s (fst p) (snd p) t) P t = fold_left (put nxs (dest_of opt nshots nx s) (place_of nx fxsb dxs s)) P t).
  { induction P as [|p P IH]; intros t; [reflexivity|]. cbn [fold_left]. rewrite IH. f_equal. rewrite reci_trace_put. now destruct p. }
  rewrite E. clear E.
  assert (RF := reciprocal_filter opt nshots nx fxsb dxs s).
  destruct (puts_ok nxs (dest_of opt nshots nx s) (place_of nx fxsb dxs s) Hn t1 C0 (all_traces nshots (xnx s))) as [T (F1 & F2)].
  { intros b Hb. apply (Room b); [exact Hb|]. apply RF. }
  set (t := fold_left _ _ t1) in *. exists t. eexists. split; [reflexivity|].
  assert (M1 : forall b, 0 <= b < nxs -> r_mask t1 b = 1%Q).
  { intros b Hb. unfold t1. cbn [r_mask]. assert (forall ks m, In b ks \/ m b = 1%Q -> fold_left (fun m k => upd m k 1%Q) ks m b = 1%Q).
    { induction ks as [|k ks IH]; intros m [Hi|Hm]; cbn [fold_left]; [destruct Hi|exact Hm| |].
      - destruct Hi as [->|Hi]; apply IH; [right; apply upd_same|now left].
      - apply IH. right. unfold upd. destruct (b =? k); [reflexivity|exact Hm]. }
    apply H. left. now apply in_range. }
  assert (M2 : forall b, ~ 0 <= b < nxs -> r_mask t1 b = r_mask t0 b).
  { intros b Hb. unfold t1. cbn [r_mask]. assert (forall ks m, ~ In b ks -> fold_left (fun m k => upd m k 1%Q) ks m b = m b).
    { induction ks as [|k ks IH]; intros m N; [reflexivity|]. cbn [fold_left]. rewrite IH by (intros X; apply N; now right). apply upd_diff. intros ->. apply N. now left. }
    apply H. rewrite in_range. exact Hb. }
  conjs.
  - intros b Hb. destruct (T b Hb) as (T1 & T2 & T3). exists (filter (at_place (dest_of opt nshots nx s) (place_of nx fxsb dxs s) b) (all_traces nshots (xnx s))).
    split; [apply RF|]. split; [exact T1|]. split; [intros j k l Ej; exact (T2 j (k, l) Ej)|].
    assert (H : existsb (halved (dest_of opt nshots nx s) (place_of nx fxsb dxs s) b) (all_traces nshots (xnx s)) = true <->
       (opt = 1 /\ exists k l m, In (k, l) (filter (at_place (dest_of opt nshots nx s) (place_of nx fxsb dxs s) b) (all_traces nshots (xnx s))) /\ 0 <= m < nshots /\ isx s m = igx s (k * nx + l))).
    { rewrite existsb_exists. split.
      - intros ((k, l) & Hin & Hh). unfold halved in Hh. destruct (dest_of opt nshots nx s (k, l)) as [[|]|] eqn:D; try discriminate.
        pose proof (proj1 (dest_half opt nshots nx s k l) D) as (O & N & m & Hm & Em). split; [exact O|]. exists k, l, m. split; [|split; assumption].
        apply filter_In. split; [exact Hin|]. unfold at_place. rewrite D. exact Hh.
      - intros (O & k & l & m & Hin & Hm & Em). apply filter_In in Hin. destruct Hin as [Hin Ha]. exists (k, l). split; [exact Hin|].
        apply at_place_dest in Ha. destruct Ha as (h & D & Ep).
        assert (D' : dest_of opt nshots nx s (k, l) = Some true).
        { apply dest_half. split; [exact O|]. split; [|exists m; split; assumption]. apply (proj1 (dest_kept opt nshots nx s k l)); [eauto|exact O]. }
        unfold halved. rewrite D'. now apply Z.eqb_eq. }
    rewrite T3, (M1 b Hb). split.
    + intros X. apply H in X. now rewrite X.
    + intros X. destruct (existsb _ _) eqn:Ex; [|reflexivity]. exfalso. apply X. now apply H.
  - intros i Hi. destruct (F1 i Hi) as [A1 A2]. rewrite A1, A2. split; reflexivity.
  - intros b Hb. destruct (F2 b Hb) as [A1 A2]. rewrite A1, A2, (M2 b Hb). split; reflexivity.
  - exists (filter (fun k => negb (r_count t k =? 0)) (range 0 nxs)). split; [apply NoDup_filter|split; [reflexivity|]].
    + apply range_NoDup.
    + intros b. rewrite filter_In, in_range, negb_true_iff, Z.eqb_neq. reflexivity.
Qed.
Print Assumptions C62_reciprocity.

(** two shots, both with receivers at the places 0, 1 and 2; the sources are at 0 and 5 *)
Definition demo_shots : shots :=
  mkShots (fun m => if m =? 0 then 0 else 5) (fun i => i mod 3) (fun m => inject_Z (if m =? 0 then 0 else 5)) (fun _ => 0%Q) (fun i => inject_Z (i mod 3)) (fun _ => 3).
Definition empty_reci : reci := mkReci (fun _ => 0) (fun _ => 0) (fun _ => 0) (fun _ => 0%Q).
Lemma demo_reciprocal opt b L : reciprocal 2 3 (xnx demo_shots) (isx demo_shots) (igx demo_shots) (fun k l => NINT ((xrcv demo_shots (k * 3 + l) - 0) / 1)) opt b L ->
  (length L <= length (filter (at_place (dest_of opt 2 3 demo_shots) (place_of 3 0 1 demo_shots) b) (all_traces 2 (xnx demo_shots))))%nat.
Proof.
  intros [S H]. destruct (reciprocal_filter opt 2 3 0 1 demo_shots b) as [S' H'].
  rewrite (sorted_unique before) with (b := L) (a := filter (at_place (dest_of opt 2 3 demo_shots) (place_of 3 0 1 demo_shots) b) (all_traces 2 (xnx demo_shots))); try assumption; [lia| | |].
  - intros x [X|X]; lia.
  - intros x y z [X|X] [Y|Y]; unfold before; lia.
  - intros (k, l). rewrite H', H. reflexivity.
Qed.
Example C62_nonvacuous : forall b L, 0 <= b < 3 -> reciprocal 2 3 (xnx demo_shots) (isx demo_shots) (igx demo_shots) (fun k l => NINT ((xrcv demo_shots (k * 3 + l) - 0) / 1)) 1 b L -> Z.of_nat (length L) <= 3.
Proof.
  intros b L Hb H. apply demo_reciprocal in H. assert (B : b = 0 \/ b = 1 \/ b = 2) by lia.
  destruct B as [->|[->| ->]]; (eapply Z.le_trans; [apply inj_le, H|vm_compute; discriminate]).
Qed.

(** When more than nxs traces belong to a place, entries of the next place are overwritten. *)
Theorem C62_overflow_refuted : exists opt nshots nx nxs fxsb dxs s t0, let t := fst (reciprocity opt nshots nx nxs fxsb dxs s t0) in
  0 < nxs /\ (forall b, 0 <= b < nxs -> r_count t0 b = 0) /\ exists i, ~ 0 <= i < nxs * nxs /\ r_rcv t i <> r_rcv t0 i.
Proof.
  exists 2, 2, 1, 1, 0%Q, 1%Q, (mkShots (fun m => m) (fun _ => 0) (fun m => inject_Z m) (fun _ => 0%Q) (fun _ => 0%Q) (fun _ => 1)), empty_reci.
  cbv zeta. split; [lia|]. split; [reflexivity|]. exists 1. split; [lia|]. vm_compute. discriminate.
Qed.
Print Assumptions C62_overflow_refuted.
