(** Proofs about reading shot records. *)
From Coq Require Import ZArith QArith Qabs List Bool Lia.
From Verif Require Import ListAux FdKernels FdOutputProofs Marchenko MarchenkoProofs SuFile SuSpec.
Import ListNotations.
Local Open Scope Z_scope.

(** ** Header words *)
Lemma window_nth {A} (d : A) : forall n off (h : list A), (off + n <= length h)%nat -> map (fun k => nth (k - 1) h d) (seq (off + 1) n) = firstn n (skipn off h).
Proof.
  induction n as [|n IH]; intros off h L; [reflexivity|].
  cbn [seq map]. replace (S (off + 1)) with (S off + 1)%nat by lia. rewrite IH by lia.
  replace (off + 1 - 1)%nat with off by lia.
  assert (E : skipn off h = nth off h d :: skipn (S off) h).
  { clear IH. revert h L. induction off as [|o IHo]; intros h L; (destruct h as [|x h]; cbn in L; [lia|]); [reflexivity|]. cbn. apply IHo. lia. }
  rewrite E. reflexivity.
Qed.
Lemma le_unsigned bs : le bs = unsigned_of bs.
Proof. induction bs as [|b bs IH]; [reflexivity|]. cbn. now rewrite IH. Qed.
Lemma word_unsigned off n h : (off + n <= length h)%nat -> word off n h = unsigned_of (bytes_of (off + 1) (off + n) h).
Proof.
  intros L. unfold word, bytes_of. rewrite le_unsigned. f_equal. replace (off + n + 1 - (off + 1))%nat with n by lia. symmetry. now apply window_nth.
Qed.
Lemma bytes_len a b h : length (bytes_of a b h) = (b + 1 - a)%nat.
Proof. unfold bytes_of. now rewrite map_length, seq_length. Qed.
Lemma s32_signed off h : (off + 4 <= length h)%nat -> s32 off h = signed_of (bytes_of (off + 1) (off + 4) h).
Proof. intros L. unfold s32, signed, signed_of. rewrite word_unsigned by assumption. rewrite bytes_len. replace (off + 4 + 1 - (off + 1))%nat with 4%nat by lia. reflexivity. Qed.
Lemma s16_signed off h : (off + 2 <= length h)%nat -> s16 off h = signed_of (bytes_of (off + 1) (off + 2) h).
Proof. intros L. unfold s16, signed, signed_of. rewrite word_unsigned by assumption. rewrite bytes_len. replace (off + 2 + 1 - (off + 1))%nat with 2%nat by lia. reflexivity. Qed.

Section WORDS.
Variable t : trace.
Hypothesis L : length (t_hdr t) = 240%nat.
Lemma w_fldr : h_fldr (t_hdr t) = fldr t. Proof. unfold h_fldr. rewrite s32_signed by lia. reflexivity. Qed.
Lemma w_selev : h_selev (t_hdr t) = selev t. Proof. unfold h_selev. rewrite s32_signed by lia. reflexivity. Qed.
Lemma w_sx : h_sx (t_hdr t) = sx t. Proof. unfold h_sx. rewrite s32_signed by lia. reflexivity. Qed.
Lemma w_gx : h_gx (t_hdr t) = gx t. Proof. unfold h_gx. rewrite s32_signed by lia. reflexivity. Qed.
Lemma w_scalco : h_scalco (t_hdr t) = scalco t. Proof. unfold h_scalco. rewrite s16_signed by lia. reflexivity. Qed.
Lemma w_scalel : h_scalel (t_hdr t) = scalel t. Proof. unfold h_scalel. rewrite s16_signed by lia. reflexivity. Qed.
Lemma w_trid : h_trid (t_hdr t) = trid t. Proof. unfold h_trid. rewrite s16_signed by lia. reflexivity. Qed.
Lemma w_delrt : h_delrt (t_hdr t) = delrt t. Proof. unfold h_delrt. rewrite s16_signed by lia. reflexivity. Qed.
Lemma w_trwf : h_trwf (t_hdr t) = trwf t. Proof. unfold h_trwf. rewrite s16_signed by lia. reflexivity. Qed.
Lemma w_ns : h_ns (t_hdr t) = ns t. Proof. unfold h_ns, u16. rewrite word_unsigned by lia. reflexivity. Qed.
Lemma w_dt : h_dt (t_hdr t) = dt t. Proof. unfold h_dt, u16. rewrite word_unsigned by lia. reflexivity. Qed.
End WORDS.
Lemma scale_factor v : scale_of v = factor v.
Proof.
  unfold scale_of, factor. destruct (Z.ltb_spec v 0); destruct (Z.eqb_spec v 0); try lia; try reflexivity.
  replace (Z.abs v) with (- v) by lia. reflexivity.
Qed.

(** ** Reading at a position between two parts of the file *)
Notation len := (fun l => Z.of_nat (length l)).
Definition At (pre suf : list Z) : file := mkFile (pre ++ suf) (Z.of_nat (length pre)).
Lemma fread_some size n pre suf : 0 < size -> 0 <= n ->
  let got := Z.min (size * n) (Z.of_nat (length suf)) in
  fread size n (At pre suf) = (firstn (Z.to_nat got) suf, got / size, At (pre ++ firstn (Z.to_nat got) suf) (skipn (Z.to_nat got) suf)).
Proof.
  intros Hs Hn got. unfold fread, At, f_size. cbn [f_bytes f_pos]. rewrite app_length, Nat2Z.inj_add.
  replace (Z.max 0 (Z.of_nat (length pre) + Z.of_nat (length suf) - Z.of_nat (length pre))) with (Z.of_nat (length suf)) by lia.
  fold got. rewrite Nat2Z.id, skipn_app_len. f_equal. rewrite <- app_assoc, firstn_skipn, app_length, Nat2Z.inj_add.
  rewrite firstn_length. do 2 f_equal.
  assert (0 <= size * n) by nia. lia.
Qed.
Lemma fread_full size n pre a b : 0 < size -> 0 <= n -> Z.of_nat (length a) = size * n -> fread size n (At pre (a ++ b)) = (a, n, At (pre ++ a) b).
Proof.
  intros Hs Hn L. rewrite fread_some by assumption. cbv zeta. rewrite app_length, Nat2Z.inj_add.
  replace (Z.min (size * n) (Z.of_nat (length a) + Z.of_nat (length b))) with (size * n) by lia.
  replace (Z.to_nat (size * n)) with (length a) by lia. rewrite firstn_app_len, skipn_app_len, Z.mul_comm, Z.div_mul by lia. reflexivity.
Qed.
Lemma fread_end size n pre : 0 < size -> 0 <= n -> fread size n (At pre []) = ([], 0, At pre []).
Proof.
  intros Hs Hn. rewrite fread_some by assumption. cbv zeta. cbn [length]. assert (0 <= size * n) by nia.
  replace (Z.min (size * n) (Z.of_nat 0)) with 0 by lia. cbn [Z.to_nat firstn skipn]. rewrite app_nil_r, Z.div_0_l by lia. reflexivity.
Qed.
Lemma fread_short size n pre suf : 0 < size -> 0 <= n -> Z.of_nat (length suf) < size * n ->
  exists bs f', fread size n (At pre suf) = (bs, Z.of_nat (length suf) / size, f') /\ Z.of_nat (length suf) / size < n.
Proof.
  intros Hs Hn L. rewrite fread_some by assumption. cbv zeta. replace (Z.min (size * n) (Z.of_nat (length suf))) with (Z.of_nat (length suf)) by lia.
  do 2 eexists. split; [reflexivity|]. apply Z.div_lt_upper_bound; lia.
Qed.
Lemma seek_back pre a b : fseek_cur (- Z.of_nat (length a)) (At (pre ++ a) b) = At pre (a ++ b).
Proof.
  unfold fseek_cur, fseek_to, At. cbn [f_bytes f_pos]. rewrite app_length, Nat2Z.inj_add.
  replace (Z.of_nat (length pre) + Z.of_nat (length a) + - Z.of_nat (length a)) with (Z.of_nat (length pre)) by lia.
  destruct (Z.ltb_spec (Z.of_nat (length pre)) 0); [lia|]. now rewrite <- app_assoc.
Qed.
Lemma seek_forward pre a b : fseek_cur (Z.of_nat (length a)) (At pre (a ++ b)) = At (pre ++ a) b.
Proof.
  unfold fseek_cur, fseek_to, At. cbn [f_bytes f_pos].
  destruct (Z.ltb_spec (Z.of_nat (length pre) + Z.of_nat (length a)) 0); [lia|]. rewrite <- app_assoc, app_length, Nat2Z.inj_add. reflexivity.
Qed.
Lemma overlay_full old bs : length bs = length old -> overlay old bs = bs.
Proof. intros L. unfold overlay. rewrite L, skipn_all. apply app_nil_r. Qed.

(** ** Samples *)
Lemma samples_len (ss : list (list Z)) : Forall (fun s => length s = 4%nat) ss -> length (concat ss) = (4 * length ss)%nat.
Proof. induction 1 as [|s ss H1 H2 IH]; [reflexivity|]. cbn [concat length]. rewrite app_length, IH, H1. lia. Qed.
Lemma samples_nth : forall (ss : list (list Z)) j s, Forall (fun s => length s = 4%nat) ss -> nth_error ss j = Some s -> firstn 4 (skipn (4 * j) (concat ss)) = s.
Proof.
  induction ss as [|x ss IH]; intros j s F E; [destruct j; discriminate|]. inversion F; subst.
  destruct j as [|j].
  - injection E as <-. cbn [concat]. replace (4 * 0)%nat with 0%nat by lia. cbn [skipn]. rewrite <- H1 at 1. apply firstn_app_len.
  - cbn [nth_error] in E. cbn [concat]. replace (4 * S j)%nat with (4 * j + length x)%nat by lia. rewrite skipn_add, skipn_app_len. now apply IH.
Qed.
Lemma store_in (data : Z -> list Z) a ss j s : Forall (fun s => length s = 4%nat) ss -> nth_error ss j = Some s -> store_samples data a (concat ss) (a + Z.of_nat j) = s.
Proof.
  intros F E. unfold store_samples. rewrite samples_len by assumption.
  assert (j < length ss)%nat by (apply nth_error_Some; congruence).
  replace (Z.of_nat (4 * length ss) / 4) with (Z.of_nat (length ss)) by (rewrite Nat2Z.inj_mul, Z.mul_comm, Z.div_mul; lia).
  replace (a <=? a + Z.of_nat j) with true by (symmetry; apply Z.leb_le; lia).
  replace (a + Z.of_nat j <? a + Z.of_nat (length ss)) with true by (symmetry; apply Z.ltb_lt; lia).
  cbn [andb]. replace (Z.to_nat (4 * (a + Z.of_nat j - a))) with (4 * j)%nat by lia. now apply samples_nth.
Qed.
Lemma store_out (data : Z -> list Z) a ss i : Forall (fun s => length s = 4%nat) ss -> ~ a <= i < a + Z.of_nat (length ss) -> store_samples data a (concat ss) i = data i.
Proof.
  intros F H. unfold store_samples. rewrite samples_len by assumption.
  replace (Z.of_nat (4 * length ss) / 4) with (Z.of_nat (length ss)) by (rewrite Nat2Z.inj_mul, Z.mul_comm, Z.div_mul; lia).
  destruct (Z.leb_spec a i); destruct (Z.ltb_spec i (a + Z.of_nat (length ss))); try reflexivity. lia.
Qed.

(** ** The loop over the traces of a record *)
Definition begins_other (k : trace) (rest : list trace) : Prop := match rest with [] => True | t :: _ => ~ same_shot k t end.
Lemma file_of_cons t ts : file_of (t :: ts) = t_hdr t ++ concat (t_smp t) ++ file_of ts.
Proof. unfold file_of. cbn [map concat]. unfold trace_bytes at 1. now rewrite <- app_assoc. Qed.
Lemma file_of_app a b : file_of (a ++ b) = file_of a ++ file_of b.
Proof. unfold file_of. now rewrite map_app, concat_app. Qed.
Lemma file_of_len ts : Forall (fun t => length (t_hdr t) = 240%nat) ts -> (length ts <= length (file_of ts))%nat.
Proof. induction 1 as [|t ts H1 H2 IH]; [cbn; lia|]. rewrite file_of_cons, !app_length. cbn [length]. lia. Qed.

Lemma differs k t : length (t_hdr t) = 240%nat -> negb (sx k =? h_sx (t_hdr t)) || negb (fldr k =? h_fldr (t_hdr t)) = true <-> ~ same_shot k t.
Proof.
  intros L. rewrite (w_sx t L), (w_fldr t L). unfold same_shot. destruct (Z.eqb_spec (sx k) (sx t)); destruct (Z.eqb_spec (fldr k) (fldr t)); cbn; split; intros; try congruence; try discriminate; lia.
Qed.

Definition holds_from (n a : Z) (g : list trace) (data hdrs data' hdrs' : Z -> list Z) : Prop :=
  (forall i t, nth_error g i = Some t -> (i <> 0)%nat -> hdrs' (a + Z.of_nat i) = t_hdr t) /\
  (forall i t j s, nth_error g i = Some t -> nth_error (t_smp t) j = Some s -> data' ((a + Z.of_nat i) * n + Z.of_nat j) = s) /\
  (forall i, ~ a < i < a + Z.of_nat (length g) -> hdrs' i = hdrs i) /\
  (forall i, ~ a * n <= i < (a + Z.of_nat (length g)) * n -> data' i = data i).

(** what follows a record: nothing, or the header of another shot *)
Definition ends (k : trace) (suf : list Z) : Prop :=
  suf = [] \/ exists r more, suf = t_hdr r ++ more /\ length (t_hdr r) = 240%nat /\ ~ same_shot k r.
Lemma ends_file n k rest : Forall (is_trace n) rest -> begins_other k rest -> ends k (file_of rest).
Proof.
  intros F B. destruct rest as [|r rest]; [now left|]. right. exists r, (concat (t_smp r) ++ file_of rest). split; [apply file_of_cons|].
  split; [exact (proj1 (Forall_inv F))|exact B].
Qed.

Lemma loop_record n k : forall g t fuel a data hdrs pre suf, 0 <= n -> (length g < fuel)%nat ->
  Forall (is_trace n) (t :: g) -> Forall (same_shot k) g -> ends k suf ->
  exists data' hdrs', readData_loop fuel n (sx k) (fldr k) a data hdrs (At pre (concat (t_smp t) ++ file_of g ++ suf)) =
    Ret (a + Z.of_nat (S (length g)), data', hdrs', At (pre ++ concat (t_smp t) ++ file_of g) suf) /\ holds_from n a (t :: g) data hdrs data' hdrs'.
Proof.
  induction g as [|u g IH]; intros t fuel a data hdrs pre suf Hn Hf Ft Fs B; (destruct fuel as [|fuel]; [cbn in Hf; lia|]);
    pose proof (Forall_inv Ft) as (Lh & En & Ls & F4); cbn [readData_loop].
  - rewrite (fread_full 4 n) by (try lia; rewrite samples_len by assumption; lia). rewrite Z.eqb_refl. cbn [negb].
    assert (Hh : holds_from n a [t] data hdrs (store_samples data (a * n) (concat (t_smp t))) hdrs).
    { unfold holds_from. cbn [length]. conjs.
      - intros i t0 E Hi. destruct i as [|[|i]]; [lia|discriminate|discriminate].
      - intros i t0 j s E Es. destruct i as [|[|i]]; [|discriminate|discriminate]. injection E as <-.
        replace ((a + Z.of_nat 0) * n + Z.of_nat j) with (a * n + Z.of_nat j) by lia. now apply store_in.
      - reflexivity.
      - intros i Hi. apply store_out; [assumption|]. rewrite Ls. nia. }
    unfold file_of. cbn [map concat app]. rewrite app_nil_r. destruct B as [->|(r & more & -> & Lr & B)].
    + rewrite fread_end by (unfold TRCBYTES; lia). cbn [Z.eqb].
      do 2 eexists. split; [|exact Hh]. cbn [length]. reflexivity.
    + rewrite (fread_full 1 TRCBYTES) by (unfold TRCBYTES; rewrite ?Lr; lia).
      unfold TRCBYTES at 1 2 3. cbn [Z.eqb Pos.eqb negb].
      apply (differs k r Lr) in B. rewrite B.
      do 2 eexists. split; [|exact Hh]. replace (- TRCBYTES) with (- Z.of_nat (length (t_hdr r))) by (rewrite Lr; reflexivity).
      rewrite seek_back. reflexivity.
  - rewrite (fread_full 4 n) by (try lia; rewrite samples_len by assumption; lia). rewrite Z.eqb_refl. cbn [negb].
    pose proof (Forall_inv_tail Ft) as Fu. pose proof (Forall_inv Fu) as (Lu & _ & _ & _).
    rewrite file_of_cons, <- !app_assoc. rewrite (fread_full 1 TRCBYTES) by (unfold TRCBYTES; rewrite ?Lu; lia).
    unfold TRCBYTES at 1 2 3. cbn [Z.eqb Pos.eqb negb].
    destruct (negb (sx k =? h_sx (t_hdr u)) || negb (fldr k =? h_fldr (t_hdr u))) eqn:D.
    { apply (differs k u Lu) in D. exfalso. apply D. exact (Forall_inv Fs). }
    destruct (IH u fuel (a + 1) (store_samples data (a * n) (concat (t_smp t))) (upd hdrs (a + 1) (t_hdr u)) ((pre ++ concat (t_smp t)) ++ t_hdr u) suf Hn) as (data' & hdrs' & E & H1 & H2 & H3 & H4);
      [cbn in Hf; lia|assumption|exact (Forall_inv_tail Fs)|assumption|].
    do 2 eexists. split.
    { rewrite E. f_equal. f_equal; [f_equal; f_equal; cbn [length]; lia|]. f_equal. now rewrite <- !app_assoc. }
    unfold holds_from. cbn [length]. conjs.
    + intros i t0 Ei Hi. destruct i as [|i]; [lia|]. cbn [nth_error] in Ei. destruct i as [|i].
      * injection Ei as <-. rewrite H3 by lia. replace (a + Z.of_nat 1) with (a + 1) by lia. unfold upd. now rewrite Z.eqb_refl.
      * replace (a + Z.of_nat (S (S i))) with (a + 1 + Z.of_nat (S i)) by lia. apply H1; [exact Ei|lia].
    + intros i t0 j s Ei Es. destruct i as [|i].
      * injection Ei as <-. rewrite H4.
        -- replace ((a + Z.of_nat 0) * n + Z.of_nat j) with (a * n + Z.of_nat j) by lia. now apply store_in.
        -- assert (j < length (t_smp t))%nat by (apply nth_error_Some; congruence). nia.
      * replace ((a + Z.of_nat (S i)) * n + Z.of_nat j) with ((a + 1 + Z.of_nat i) * n + Z.of_nat j) by lia. now apply H2 with (t := t0).
    + intros i Hi. rewrite H3 by (cbn [length]; lia). unfold upd. destruct (Z.eqb_spec i (a + 1)); [lia|reflexivity].
    + intros i Hi. rewrite H4 by (cbn [length]; nia). apply store_out; [assumption|]. nia.
Qed.

(** ** A call of readData *)
Lemma hdr_first_overlay (hdrs : Z -> list Z) hb : length (hdrs 0) = 240%nat -> length hb = 240%nat -> overlay (hdrs 0) hb = hb.
Proof. intros L1 L2. apply overlay_full. lia. Qed.
Lemma readData_record n g suf pre data hdrs : g <> [] -> Forall (is_trace n) g ->
  (forall a b, In a g -> In b g -> same_shot a b) -> (forall a, In a g -> ends a suf) -> length (hdrs 0) = 240%nat ->
  forall n1, n1 = n \/ n1 = 0 ->
  exists data' hdrs', readData (At pre (file_of g ++ suf)) data hdrs n1 = Ret (Z.of_nat (length g), data', hdrs', At (pre ++ file_of g) suf) /\ holds n g data hdrs data' hdrs'.
Proof.
  intros Ne Fg S1 S2 L0 n1 H1. destruct g as [|t g]; [congruence|]. pose proof (Forall_inv Fg) as (Lh & En & Ls & F4).
  unfold readData. rewrite file_of_cons, <- !app_assoc. rewrite (fread_full 1 TRCBYTES) by (unfold TRCBYTES; rewrite ?Lh; lia).
  unfold TRCBYTES at 1. cbn [Z.eqb]. rewrite (hdr_first_overlay hdrs _ L0 Lh). assert (U : upd hdrs 0 (t_hdr t) 0 = t_hdr t) by (unfold upd; now rewrite Z.eqb_refl). rewrite U.
  rewrite (w_sx t Lh), (w_fldr t Lh), (w_ns t Lh), En.
  assert (Hn : 0 <= n) by lia.
  assert (E1 : (if n1 =? 0 then n else n1) = n) by (destruct (Z.eqb_spec n1 0); destruct H1; lia). rewrite E1.
  destruct (loop_record n t g t (S (length (f_bytes (At pre (t_hdr t ++ concat (t_smp t) ++ file_of g ++ suf))))) 0 data (upd hdrs 0 (t_hdr t)) (pre ++ t_hdr t) suf Hn) as (data' & hdrs' & E & H2 & H3 & H4 & H5).
  - unfold At. cbn [f_bytes]. rewrite !app_length. assert (length g <= length (file_of g))%nat.
    { apply file_of_len. apply Forall_inv_tail in Fg; revert Fg; apply Forall_impl; intros ? (H & _); exact H. }
    lia.
  - assumption.
  - apply Forall_forall. intros x Hx. apply S1; [now left|now right].
  - apply S2. now left.
  - do 2 eexists. split.
    + rewrite E. f_equal. f_equal. f_equal. now rewrite <- !app_assoc.
    + unfold holds. conjs.
      * intros i t0 Ei. destruct i as [|i].
        -- injection Ei as <-. rewrite H4 by lia. unfold upd. rewrite Z.eqb_refl. reflexivity.
        -- replace (Z.of_nat (S i)) with (0 + Z.of_nat (S i)) by lia. apply H2; [exact Ei|lia].
      * intros i t0 j s Ei Es. replace (Z.of_nat i * n) with ((0 + Z.of_nat i) * n) by lia. now apply H3 with (t := t0).
      * intros i Hi. rewrite H4 by lia. unfold upd. destruct (Z.eqb_spec i 0); [cbn [length] in Hi; lia|reflexivity].
      * intros i Hi. apply H5. lia.
Qed.
Lemma readData_end pre data hdrs n1 : exists hdrs', readData (At pre []) data hdrs n1 = Ret (0, data, hdrs', At pre []) /\ forall i, hdrs' i = hdrs i.
Proof.
  unfold readData. rewrite fread_end by (unfold TRCBYTES; lia). cbn [Z.eqb]. eexists. split; [reflexivity|].
  intros i. unfold upd, overlay. destruct (Z.eqb_spec i 0) as [->|]; [|reflexivity]. reflexivity.
Qed.

(** ** Division into records *)
Lemma records_cons ts g gs : records ts (g :: gs) -> exists rest, ts = g ++ rest /\ records rest gs /\ g <> [] /\ (forall a b, In a g -> In b g -> same_shot a b) /\
  (forall a b r, In a g -> rest = b :: r -> ~ same_shot a b).
Proof.
  intros (E & F & A). exists (concat gs). cbn [concat] in E. conjs.
  - now rewrite E.
  - unfold records; conjs; [reflexivity|exact (Forall_inv_tail F)|]. intros l g0 h r ->. apply (A (g :: l) g0 h r). reflexivity.
  - exact (proj1 (Forall_inv F)).
  - exact (proj2 (Forall_inv F)).
  - intros a b r Ha Er. destruct gs as [|h gs]; [discriminate|]. pose proof (Forall_inv (Forall_inv_tail F)) as (Nh & _).
    destruct h as [|c h]; [congruence|]. cbn [concat app] in Er. injection Er as <- _.
    apply (A [] g (c :: h) gs); [reflexivity|assumption|now left].
Qed.
Lemma records_nil ts : records ts [] -> ts = [].
Proof. intros (E & _). now cbn in E. Qed.

Definition same_shotb (a b : trace) : bool := (sx a =? sx b) && (fldr a =? fldr b).
Lemma same_shotb_ok a b : same_shotb a b = true <-> same_shot a b.
Proof. unfold same_shotb, same_shot. rewrite andb_true_iff, !Z.eqb_eq. reflexivity. Qed.
Fixpoint split_records (ts : list trace) : list (list trace) :=
  match ts with
  | [] => []
  | t :: ts => match split_records ts with
               | (u :: g) :: gs => if same_shotb t u then (t :: u :: g) :: gs else [t] :: (u :: g) :: gs
               | _ => [[t]]
               end
  end.
Lemma same_shot_sym a b : same_shot a b -> same_shot b a.
Proof. intros [E1 E2]. now split. Qed.
Lemma same_shot_trans a b c : same_shot a b -> same_shot b c -> same_shot a c.
Proof. intros [E1 E2] [E3 E4]. split; congruence. Qed.
Lemma split_records_ok ts : records ts (split_records ts).
Proof.
  induction ts as [|t ts (E & F & A)].
  - unfold records; conjs; [reflexivity|constructor|]. intros l g h r H. destruct l; discriminate.
  - cbn [split_records]. destruct (split_records ts) as [|[|u g] gs].
    + cbn in E. subst ts. unfold records; conjs; [reflexivity| |].
      * constructor; [|constructor]. split; [discriminate|]. intros a b [<-|[]] [<-|[]]. now split.
      * intros l g h r H. destruct l as [|? [|? ?]]; discriminate.
    + exfalso. destruct (Forall_inv F) as [N _]. congruence.
    + pose proof (Forall_inv F) as (_ & S). destruct (same_shotb t u) eqn:Q.
      * apply same_shotb_ok in Q. unfold records; conjs.
        -- cbn [concat app] in *. now rewrite E.
        -- constructor; [|exact (Forall_inv_tail F)]. split; [discriminate|].
           assert (Hu : forall x, In x (t :: u :: g) -> same_shot u x).
           { intros x [<-|Hx]; [now apply same_shot_sym|]. apply S; [now left|assumption]. }
           intros a b Ha Hb. apply same_shot_trans with u; [apply same_shot_sym|]; now apply Hu.
        -- intros l g0 h r H a b Ha Hb. destruct l as [|x l].
           ++ cbn in H. injection H as <- ->. destruct Ha as [<-|Ha].
              ** intros N. apply (A [] (u :: g) h r eq_refl u b (or_introl eq_refl) Hb). apply same_shot_trans with t; [now apply same_shot_sym|assumption].
              ** now apply (A [] (u :: g) h r eq_refl).
           ++ injection H as <- ->. now apply (A ((u :: g) :: l) g0 h r eq_refl).
      * unfold records; conjs.
        -- cbn [concat app] in *. now rewrite E.
        -- constructor; [|assumption]. split; [discriminate|]. intros a b [<-|[]] [<-|[]]. now split.
        -- intros l g0 h r H a b Ha Hb. destruct l as [|x l].
           ++ cbn in H. injection H as <- <- <-. destruct Ha as [<-|[]]. intros N.
              assert (same_shot t u) by (apply same_shot_trans with b; [assumption|apply S; [assumption|now left]]).
              apply same_shotb_ok in H. congruence.
           ++ cbn in H. injection H as <- H. now apply (A l g0 h r H).
Qed.
Lemma records_unique : forall gs ts hs, records ts gs -> records ts hs -> gs = hs.
Proof.
  induction gs as [|g gs IH]; intros ts hs R1 R2.
  - apply records_nil in R1. subst ts. destruct hs as [|h hs]; [reflexivity|].
    apply records_cons in R2. destruct R2 as (rest & E & _ & N & _). destruct h; [congruence|discriminate].
  - destruct hs as [|h hs]. { apply records_nil in R2. subst ts. apply records_cons in R1. destruct R1 as (rest & E & _ & N & _). destruct g; [congruence|discriminate]. }
    apply records_cons in R1. destruct R1 as (r1 & E1 & R1 & N1 & S1 & D1).
    apply records_cons in R2. destruct R2 as (r2 & E2 & R2 & N2 & S2 & D2).
    assert (G : g = h).
    { rewrite E1 in E2. clear - N1 N2 S1 S2 D1 D2 E2.
      assert (P : forall k g h, k <> [] -> (forall a b, In a (k ++ g) -> In b (k ++ g) -> same_shot a b) -> (forall a b, In a (k ++ h) -> In b (k ++ h) -> same_shot a b) ->
        (forall a b r, In a (k ++ g) -> r1 = b :: r -> ~ same_shot a b) -> (forall a b r, In a (k ++ h) -> r2 = b :: r -> ~ same_shot a b) -> g ++ r1 = h ++ r2 -> g = h).
      { clear. intros k g. revert k. induction g as [|x g IHg]; intros k h Nk A B C D E; (destruct k as [|c k0]; [congruence|]).
        - destruct h as [|y h]; [reflexivity|]. cbn in E. exfalso. apply (C c y (h ++ r2)); [now left|exact E|].
          apply B; [now left|]. apply in_or_app. right. now left.
        - destruct h as [|y h].
          + cbn in E. exfalso. apply (D c x (g ++ r1)); [now left|now symmetry|]. apply A; [now left|]. apply in_or_app. right. now left.
          + cbn in E. injection E as <- E. f_equal. apply (IHg ((c :: k0) ++ [x]) h); [destruct k0; discriminate| | | | |assumption];
              rewrite <- ?app_assoc; cbn [app]; assumption. }
      destruct g as [|x g]; [congruence|]. destruct h as [|y h]; [congruence|]. cbn in E2. injection E2 as <- E2. f_equal. apply (P [x] g h); try assumption. discriminate. }
    subst h. f_equal. rewrite E1 in E2. apply app_inv_head in E2. subst r2. now apply (IH r1).
Qed.
