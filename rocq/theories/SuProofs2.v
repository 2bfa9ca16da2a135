(** Proofs about the file information and the shot positions. *)
From Coq Require Import ZArith QArith Qabs List Bool Lia.
From Verif Require Import ListAux FdKernels FdOutputProofs Marchenko MarchenkoProofs SuFile SuSpec SuProofs.
Import ListNotations.
Local Open Scope Z_scope.

Lemma is_trace_len n t : is_trace n t -> length (t_hdr t) = 240%nat.
Proof. now intros (H & _). Qed.
Lemma smp_len n t : is_trace n t -> Z.of_nat (length (concat (t_smp t))) = 4 * n.
Proof. intros (_ & _ & L & F). rewrite samples_len by assumption. lia. Qed.
Lemma trc_len n t : is_trace n t -> Z.of_nat (length (t_hdr t)) = 1 * TRCBYTES.
Proof. intros (L & _). rewrite L. reflexivity. Qed.
Lemma file_of_nil : file_of [] = [].
Proof. reflexivity. Qed.
Lemma size_of_file n ts : Forall (is_trace n) ts -> Z.of_nat (length (file_of ts)) = Z.of_nat (length ts) * (4 * n + 240).
Proof.
  induction 1 as [|t ts H F IH]; [reflexivity|]. rewrite file_of_cons, !app_length, !Nat2Z.inj_add, (smp_len n t H), (is_trace_len n t H), IH. cbn [length]. lia.
Qed.

Lemma last_shift {A} : forall (g : list A) (u t : A), last (u :: g) t = last g u.
Proof. induction g as [|v g IH]; intros u t; [reflexivity|]. change (last (u :: v :: g) t) with (last (v :: g) t). rewrite IH. symmetry. apply IH. Qed.

(** ** The first record *)
Lemma info_first_ok n k : forall g t fuel a pre rest, 0 <= n -> (length g < fuel)%nat -> Forall (is_trace n) (t :: g) -> Forall (is_trace n) rest ->
  Forall (same_shot k) g -> begins_other k rest ->
  info_first fuel (sx k) (fldr k) (t_hdr t) a (At pre (concat (t_smp t) ++ file_of (g ++ rest))) =
    Ret (a + Z.of_nat (S (length g)), t_hdr (hd (last g t) rest), gx (last g t)).
Proof.
  induction g as [|u g IH]; intros t fuel a pre rest Hn Hf Ft Fr Fs B; (destruct fuel as [|fuel]; [cbn in Hf; lia|]);
    pose proof (Forall_inv Ft) as Ht; pose proof Ht as (Lh & En & Ls & F4); cbn [info_first]; rewrite (w_ns t Lh), En;
    rewrite (fread_full 4 n) by (try lia; now rewrite (smp_len n t Ht)); rewrite Z.eqb_refl; cbn [negb]; rewrite (w_gx t Lh).
  - cbn [app last length]. destruct rest as [|r rest].
    + rewrite file_of_nil, fread_end by (unfold TRCBYTES; lia). cbn [Z.eqb hd]. reflexivity.
    + rewrite file_of_cons. pose proof (Forall_inv Fr) as Hr. rewrite (fread_full 1 TRCBYTES) by (try (unfold TRCBYTES; lia); apply (trc_len n r Hr)).
      rewrite overlay_full by (rewrite (is_trace_len n r Hr); lia). replace (TRCBYTES =? 0) with false by reflexivity. cbv iota.
      cbn [begins_other] in B. apply (differs k r (is_trace_len n r Hr)) in B. rewrite B. reflexivity.
  - pose proof (Forall_inv_tail Ft) as Fu. pose proof (Forall_inv Fu) as Hu.
    cbn [app]. rewrite file_of_cons, (fread_full 1 TRCBYTES) by (try (unfold TRCBYTES; lia); apply (trc_len n u Hu)).
    rewrite overlay_full by (rewrite (is_trace_len n u Hu); lia). replace (TRCBYTES =? 0) with false by reflexivity. cbv iota.
    destruct (negb (sx k =? h_sx (t_hdr u)) || negb (fldr k =? h_fldr (t_hdr u))) eqn:D.
    { apply (differs k u (is_trace_len n u Hu)) in D. exfalso. apply D. exact (Forall_inv Fs). }
    rewrite (IH u fuel (a + 1) _ rest Hn); [|cbn in Hf; lia|assumption|assumption|exact (Forall_inv_tail Fs)|assumption].
    rewrite last_shift. f_equal. f_equal. f_equal. cbn [length]. lia.
Qed.

(** ** Scanning a record *)
Definition lo (ts : list trace) (m : Z) : Z := fold_left (fun m t => Z.min m (Z.min (gx t) (sx t))) ts m.
Definition hi (ts : list trace) (m : Z) : Z := fold_left (fun m t => Z.max m (Z.max (gx t) (sx t))) ts m.
Definition scanned (ts : list trace) (s s' : scan) : Prop := s_xmin s' = lo ts (s_xmin s) /\ s_xmax s' = hi ts (s_xmax s).
(** the position after the header of the next record *)
Definition after (pre : list Z) (rest : list trace) : file :=
  match rest with [] => At pre [] | r :: rest => At (pre ++ t_hdr r) (concat (t_smp r) ++ file_of rest) end.
Definition is_nil {A} (l : list A) : bool := match l with [] => true | _ => false end.


Lemma info_shot_ok n k : forall g t fuel a gx_end s pre rest, 0 <= n -> (length g < fuel)%nat -> Forall (is_trace n) (t :: g) -> Forall (is_trace n) rest ->
  Forall (same_shot k) g -> begins_other k rest ->
  exists s', info_shot fuel (4 * n) (sx k) (fldr k) gx_end (t_hdr t) a s (At pre (concat (t_smp t) ++ file_of (g ++ rest))) =
    Ret (a + Z.of_nat (S (length g)), gx (last g t), is_nil rest, s', after (pre ++ concat (t_smp t) ++ file_of g) rest) /\ scanned (t :: g) s s' /\
    (g = [] -> gx_end = gx t -> s_dxrcv s' = s_dxrcv s).
Proof.
  induction g as [|u g IH]; intros t fuel a gx_end s pre rest Hn Hf Ft Fr Fs B; (destruct fuel as [|fuel]; [cbn in Hf; lia|]);
    pose proof (Forall_inv Ft) as Ht; cbn [info_shot]; rewrite <- (smp_len n t Ht), seek_forward, (w_gx t (is_trace_len n t Ht)).
  - cbn [app last length]. destruct rest as [|r rest].
    + rewrite file_of_nil, fread_end by (unfold TRCBYTES; lia). replace (0 =? TRCBYTES) with false by reflexivity. cbn [negb].
      rewrite app_nil_r. cbn [after is_nil]. eexists. split; [reflexivity|]. split.
      * unfold scanned, extremes. cbn [s_xmin s_xmax lo hi fold_left]. rewrite (w_gx t (is_trace_len n t Ht)), (w_sx t (is_trace_len n t Ht)).
        destruct (gx t =? gx_end); cbn [s_xmin s_xmax]; split; lia.
      * intros _ ->. rewrite Z.eqb_refl. reflexivity.
    + rewrite file_of_cons. pose proof (Forall_inv Fr) as Hr. rewrite (fread_full 1 TRCBYTES) by (try (unfold TRCBYTES; lia); apply (trc_len n r Hr)).
      rewrite overlay_full by (rewrite (is_trace_len n r Hr), (is_trace_len n t Ht); lia). rewrite Z.eqb_refl. cbn [negb].
      cbn [begins_other] in B. apply (differs k r (is_trace_len n r Hr)) in B. rewrite B. rewrite file_of_nil, app_nil_r. cbn [after is_nil].
      eexists. split; [reflexivity|]. split.
      * unfold scanned, extremes. cbn [s_xmin s_xmax lo hi fold_left]. rewrite (w_gx t (is_trace_len n t Ht)), (w_sx t (is_trace_len n t Ht)).
        destruct (gx t =? gx_end); cbn [s_xmin s_xmax]; split; lia.
      * intros _ ->. rewrite Z.eqb_refl. reflexivity.
  - pose proof (Forall_inv_tail Ft) as Fu. pose proof (Forall_inv Fu) as Hu.
    cbn [app]. rewrite file_of_cons, (fread_full 1 TRCBYTES) by (try (unfold TRCBYTES; lia); apply (trc_len n u Hu)).
    rewrite overlay_full by (rewrite (is_trace_len n u Hu), (is_trace_len n t Ht); lia). rewrite Z.eqb_refl. cbn [negb].
    destruct (negb (sx k =? h_sx (t_hdr u)) || negb (fldr k =? h_fldr (t_hdr u))) eqn:D.
    { apply (differs k u (is_trace_len n u Hu)) in D. exfalso. apply D. exact (Forall_inv Fs). }
    match goal with |- context [info_shot fuel _ _ _ ?ge _ _ ?s1 (At ?p _)] =>
      rewrite (smp_len n t Ht); destruct (IH u fuel (a + 1) ge s1 p rest Hn) as (s' & E & (S1 & S2) & _); [cbn in Hf; lia|assumption|assumption|exact (Forall_inv_tail Fs)|assumption|] end.
    exists s'. split.
    { rewrite E. rewrite last_shift. f_equal. f_equal; [f_equal; f_equal; f_equal; cbn [length]; lia|]. f_equal. rewrite (file_of_cons u g), <- !app_assoc. reflexivity. }
    split; [|discriminate]. unfold scanned. rewrite S1, S2. unfold extremes. cbn [s_xmin s_xmax].
    rewrite (w_gx t (is_trace_len n t Ht)), (w_sx t (is_trace_len n t Ht)). cbn [lo hi fold_left].
    assert (X1 : s_xmin (if gx t =? gx_end then s else mkScan (s_xmin s) (s_xmax s) (QMIN (s_dxrcv s) (inject_Z (Z.abs (gx t - gx_end))))) = s_xmin s) by (destruct (gx t =? gx_end); reflexivity).
    assert (X2 : s_xmax (if gx t =? gx_end then s else mkScan (s_xmin s) (s_xmax s) (QMIN (s_dxrcv s) (inject_Z (Z.abs (gx t - gx_end))))) = s_xmax s) by (destruct (gx t =? gx_end); reflexivity).
    rewrite X1, X2. split; unfold lo, hi; f_equal; f_equal; lia.
Qed.

(** ** Scanning all records *)
Definition glen (g : list trace) : Z := Z.of_nat (length g).
Definition n2_of (gs : list (list trace)) (n0 : Z) : Z := fold_left (fun n g => if 1 <? glen g then Z.max n (glen g) else n) gs n0.
Definition spread (g : list trace) : Q := match g with [] => 0%Q | t :: g => (inject_Z (Z.abs (gx (last g t) - gx t)) / inject_Z (glen (t :: g) - 1))%Q end.
Definition dx_of (gs : list (list trace)) (d : Q) : Q := fold_left (fun d g => if 1 <? glen g then spread g else d) gs d.
Lemma lo_app a b m : lo (a ++ b) m = lo b (lo a m). Proof. apply fold_left_app. Qed.
Lemma hi_app a b m : hi (a ++ b) m = hi b (hi a m). Proof. apply fold_left_app. Qed.
Lemma lo_idem t g m : lo (t :: g) (Z.min (Z.min (gx t) m) (sx t)) = lo (t :: g) m.
Proof. cbn [lo fold_left]. f_equal. lia. Qed.
Lemma hi_idem t g m : hi (t :: g) (Z.max (Z.max (gx t) m) (sx t)) = hi (t :: g) m.
Proof. cbn [hi fold_left]. f_equal. lia. Qed.
Lemma Forall_tail {A} (P : A -> Prop) (a b : list A) : Forall P (a ++ b) -> Forall P a /\ Forall P b.
Proof. apply Forall_app. Qed.

Lemma info_shots_ok n : 0 <= n -> forall gs ts fuel hdr ig n0 s pre, (length gs < fuel)%nat -> length hdr = 240%nat -> Forall (is_trace n) ts -> records ts gs ->
  exists s', info_shots fuel (4 * n) hdr ig n0 s (At pre (file_of ts)) = Ret (ig + Z.of_nat (length gs), n2_of gs n0, s') /\
    scanned ts s s' /\ s_dxrcv s' = dx_of gs (s_dxrcv s).
Proof.
  intros Hn. induction gs as [|g gs IH]; intros ts fuel hdr ig n0 s pre Hf Lhdr F R; (destruct fuel as [|fuel]; [cbn in Hf; lia|]); cbn [info_shots].
  - apply records_nil in R. subst ts. rewrite file_of_nil, fread_end by (unfold TRCBYTES; lia). replace (0 =? TRCBYTES) with false by reflexivity. cbn [negb length].
    exists s. split; [f_equal; f_equal; f_equal; lia|]. split; [split; reflexivity|reflexivity].
  - apply records_cons in R. destruct R as (rest & -> & R & Ne & S1 & S2). apply Forall_tail in F. destruct F as [Fg Fr]. destruct g as [|t g]; [congruence|].
    pose proof (Forall_inv Fg) as Ht. cbn [app]. rewrite file_of_cons, (fread_full 1 TRCBYTES) by (try (unfold TRCBYTES; lia); apply (trc_len n t Ht)).
    rewrite Z.eqb_refl. cbn [negb]. rewrite overlay_full by (rewrite (is_trace_len n t Ht); lia).
    rewrite (w_sx t (is_trace_len n t Ht)), (w_fldr t (is_trace_len n t Ht)), (w_gx t (is_trace_len n t Ht)).
    match goal with |- context [info_shot ?fu _ _ _ ?ge _ _ ?s1 (At ?p _)] => destruct (info_shot_ok n t g t fu 0 ge s1 p rest Hn) as (s2 & E & (X1 & X2) & D) end.
    { unfold At. cbn [f_bytes]. rewrite !app_length. assert (length (g ++ rest) <= length (file_of (g ++ rest)))%nat.
      { apply file_of_len. apply Forall_app. split; [apply Forall_inv_tail in Fg; revert Fg|revert Fr]; apply Forall_impl; intros ? (H & _); exact H. }
      rewrite app_length in *. lia. }
    { assumption. } { assumption. }
    { apply Forall_forall. intros x Hx. apply S1; [now left|now right]. }
    { destruct rest as [|b r]; cbn; [exact I|]. apply (S2 t b r); [now left|reflexivity]. }
    rewrite E. replace (0 + Z.of_nat (S (length g)) =? 0) with false by (symmetry; apply Z.eqb_neq; lia).
    replace (0 + Z.of_nat (S (length g))) with (glen (t :: g)) by (unfold glen; cbn [length]; lia).
    unfold extremes in X1, X2. cbn [s_xmin s_xmax] in X1, X2. rewrite (w_gx t (is_trace_len n t Ht)), (w_sx t (is_trace_len n t Ht)) in X1, X2. rewrite lo_idem in X1. rewrite hi_idem in X2.
    set (s3 := if 1 <? glen (t :: g) then _ else s2).
    assert (Y1 : s_xmin s3 = lo (t :: g) (s_xmin s)) by (unfold s3; destruct (1 <? glen (t :: g)); exact X1).
    assert (Y2 : s_xmax s3 = hi (t :: g) (s_xmax s)) by (unfold s3; destruct (1 <? glen (t :: g)); exact X2).
    assert (Y3 : s_dxrcv s3 = if 1 <? glen (t :: g) then spread (t :: g) else s_dxrcv s).
    { unfold s3. destruct (Z.ltb_spec 1 (glen (t :: g))); [reflexivity|]. apply D; [|reflexivity]. destruct g; [reflexivity|]. unfold glen in *. cbn [length] in *. lia. }
    destruct rest as [|r rest].
    + cbn [is_nil after]. destruct gs as [|g' gs]; [|apply records_cons in R; destruct R as (rest & E1 & _ & N & _); destruct g'; [congruence|discriminate]].
      exists s3. split; [f_equal; f_equal; f_equal; cbn [length]; lia|]. rewrite app_nil_r. split; [split; assumption|exact Y3].
    + cbn [is_nil after]. rewrite (file_of_cons t g) || idtac.
      pose proof (Forall_inv Fr) as Hr. replace (- TRCBYTES) with (- Z.of_nat (length (t_hdr r))) by (rewrite (is_trace_len n r Hr); reflexivity).
      rewrite seek_back, <- file_of_cons.
      match goal with |- context [info_shots fuel _ ?h _ ?nn ?ss (At ?p _)] => destruct (IH (r :: rest) fuel h (ig + 1) nn ss p) as (s4 & E4 & (Z1 & Z2) & Z3) end.
      { cbn in Hf. lia. } { exact (is_trace_len n t Ht). } { assumption. } { assumption. }
      exists s4. split.
      { etransitivity; [exact E4|]. f_equal. f_equal. f_equal. cbn [length]. lia. }
      split.
      * unfold scanned. rewrite Z1, Z2, Y1, Y2. change (t :: g ++ r :: rest) with ((t :: g) ++ r :: rest). rewrite lo_app, hi_app. split; reflexivity.
      * rewrite Z3, Y3. reflexivity.
Qed.

Lemma longest_nonneg {A} (gs : list (list A)) : 0 <= longest gs.
Proof. induction gs as [|g gs IH]; [cbn; lia|]. cbn [longest fold_right]; fold (longest gs); lia. Qed.
Lemma n2_longest : forall gs n0, 0 <= n0 -> Forall (fun g => g <> []) gs -> n2_of gs n0 = Z.max n0 (if 1 <? longest gs then longest gs else 0).
Proof.
  induction gs as [|g gs IH]; intros n0 H0 F; [cbn; lia|]. cbn [n2_of fold_left]. fold (n2_of gs (if 1 <? glen g then Z.max n0 (glen g) else n0)).
  rewrite IH; [|destruct (1 <? glen g); lia|exact (Forall_inv_tail F)]. cbn [longest fold_right]. fold (longest gs).
  pose proof (longest_nonneg gs).
  unfold glen. repeat match goal with |- context [?a <? ?b] => destruct (Z.ltb_spec a b) end; lia.
Qed.
Lemma longest_in {A} (gs : list (list A)) g : In g gs -> Z.of_nat (length g) <= longest gs.
Proof. induction gs as [|h gs IH]; [intros []|]. intros H. cbn [longest fold_right]. fold (longest gs). destruct H as [->|H]; [lia|]. specialize (IH H). lia. Qed.

(** ** Positions of the shots *)
Definition placed (nx : Z) (scl scel : Q) (i0 : Z) (gs : list (list trace)) (s s' : shots) : Prop :=
  (forall k g t, nth_error gs k = Some g -> hd_error g = Some t ->
     isx s' (i0 + Z.of_nat k) = sx t /\ xsrc s' (i0 + Z.of_nat k) = (inject_Z (sx t) * scl)%Q /\ zsrc s' (i0 + Z.of_nat k) = (inject_Z (selev t) * scel)%Q /\ xnx s' (i0 + Z.of_nat k) = Z.of_nat (length g)) /\
  (forall k g l t, nth_error gs k = Some g -> nth_error g l = Some t ->
     igx s' ((i0 + Z.of_nat k) * nx + Z.of_nat l) = gx t /\ xrcv s' ((i0 + Z.of_nat k) * nx + Z.of_nat l) = (inject_Z (gx t) * scl)%Q) /\
  (forall i, ~ i0 <= i < i0 + Z.of_nat (length gs) -> isx s' i = isx s i /\ xsrc s' i = xsrc s i /\ zsrc s' i = zsrc s i /\ xnx s' i = xnx s i) /\
  (forall i, ~ i0 * nx <= i < (i0 + Z.of_nat (length gs)) * nx -> igx s' i = igx s i /\ xrcv s' i = xrcv s i).

Lemma upd_same {V} (m : Z -> V) a v : upd m a v a = v. Proof. unfold upd. now rewrite Z.eqb_refl. Qed.
Lemma upd_diff {V} (m : Z -> V) a v x : x <> a -> upd m a v x = m x. Proof. intros H. unfold upd. destruct (Z.eqb_spec x a); [congruence|reflexivity]. Qed.

Lemma read_shot_ok n k nx scl ig : forall g t fuel a s pre rest, 0 <= n -> (length g < fuel)%nat -> Forall (is_trace n) (t :: g) -> Forall (is_trace n) rest ->
  Forall (same_shot k) g -> begins_other k rest ->
  exists s', read_shot fuel n nx (sx k) (fldr k) scl ig (t_hdr t) a s (At pre (concat (t_smp t) ++ file_of (g ++ rest))) =
    Ret (a + Z.of_nat (S (length g)), is_nil rest, s', after (pre ++ concat (t_smp t) ++ file_of g) rest) /\
    isx s' = isx s /\ xsrc s' = xsrc s /\ zsrc s' = zsrc s /\ xnx s' ig = xnx s ig + Z.of_nat (S (length g)) /\ (forall i, i <> ig -> xnx s' i = xnx s i) /\
    (forall l u, nth_error (t :: g) l = Some u -> igx s' (ig * nx + a + Z.of_nat l) = gx u /\ xrcv s' (ig * nx + a + Z.of_nat l) = (inject_Z (gx u) * scl)%Q) /\
    (forall i, ~ ig * nx + a <= i < ig * nx + a + Z.of_nat (S (length g)) -> igx s' i = igx s i /\ xrcv s' i = xrcv s i).
Proof.
  induction g as [|u g IH]; intros t fuel a s pre rest Hn Hf Ft Fr Fs B; (destruct fuel as [|fuel]; [cbn in Hf; lia|]);
    pose proof (Forall_inv Ft) as Ht; pose proof Ht as (Lh & En & Ls & F4); cbn [read_shot]; rewrite (w_ns t Lh), En, (w_gx t Lh);
    rewrite (fread_full 4 n) by (try lia; now rewrite (smp_len n t Ht)); rewrite Z.eqb_refl; cbn [negb].
  - assert (P : forall s', s' = set_receiver s ig (ig * nx + a) (gx t) (inject_Z (gx t) * scl)%Q ->
      isx s' = isx s /\ xsrc s' = xsrc s /\ zsrc s' = zsrc s /\ xnx s' ig = xnx s ig + Z.of_nat (S (@length trace [])) /\ (forall i, i <> ig -> xnx s' i = xnx s i) /\
      (forall l u, nth_error [t] l = Some u -> igx s' (ig * nx + a + Z.of_nat l) = gx u /\ xrcv s' (ig * nx + a + Z.of_nat l) = (inject_Z (gx u) * scl)%Q) /\
      (forall i, ~ ig * nx + a <= i < ig * nx + a + Z.of_nat (S (@length trace [])) -> igx s' i = igx s i /\ xrcv s' i = xrcv s i)).
    { intros s' ->. unfold set_receiver. cbn [isx xsrc zsrc xnx igx xrcv length]. conjs; try reflexivity.
      - rewrite upd_same. lia.
      - intros i Hi. now rewrite upd_diff.
      - intros l v E. destruct l as [|[|l]]; [|discriminate|discriminate]. injection E as <-. replace (ig * nx + a + Z.of_nat 0) with (ig * nx + a) by lia. now rewrite !upd_same.
      - intros i Hi. rewrite !upd_diff by lia. split; reflexivity. }
    cbn [app]. destruct rest as [|r rest].
    + rewrite file_of_nil, fread_end by (unfold TRCBYTES; lia). replace (0 =? TRCBYTES) with false by reflexivity. cbn [negb is_nil after]. rewrite app_nil_r.
      eexists. split; [reflexivity|]. now apply P.
    + rewrite file_of_cons. pose proof (Forall_inv Fr) as Hr. rewrite (fread_full 1 TRCBYTES) by (try (unfold TRCBYTES; lia); apply (trc_len n r Hr)).
      rewrite overlay_full by (rewrite (is_trace_len n r Hr); lia). rewrite Z.eqb_refl. cbn [negb].
      cbn [begins_other] in B. apply (differs k r (is_trace_len n r Hr)) in B. rewrite B. rewrite file_of_nil, app_nil_r. cbn [after is_nil].
      eexists. split; [reflexivity|]. now apply P.
  - pose proof (Forall_inv_tail Ft) as Fu. pose proof (Forall_inv Fu) as Hu.
    cbn [app]. rewrite file_of_cons, (fread_full 1 TRCBYTES) by (try (unfold TRCBYTES; lia); apply (trc_len n u Hu)).
    rewrite overlay_full by (rewrite (is_trace_len n u Hu); lia). rewrite Z.eqb_refl. cbn [negb].
    destruct (negb (sx k =? h_sx (t_hdr u)) || negb (fldr k =? h_fldr (t_hdr u))) eqn:D.
    { apply (differs k u (is_trace_len n u Hu)) in D. exfalso. apply D. exact (Forall_inv Fs). }
    match goal with |- context [read_shot fuel _ _ _ _ _ _ _ _ ?s1 (At ?p _)] =>
      destruct (IH u fuel (a + 1) s1 p rest Hn) as (s' & E & I1 & I2 & I3 & I4 & I5 & I6 & I7); [cbn in Hf; lia|assumption|assumption|exact (Forall_inv_tail Fs)|assumption|] end.
    exists s'. split.
    { rewrite E. f_equal. f_equal; [f_equal; f_equal; cbn [length]; lia|]. f_equal. rewrite (file_of_cons u g), <- !app_assoc. reflexivity. }
    unfold set_receiver in *. cbn [isx xsrc zsrc xnx igx xrcv length] in *. conjs; try assumption.
    + rewrite I4, upd_same. lia.
    + intros i Hi. rewrite I5 by assumption. now rewrite upd_diff.
    + intros l v El. destruct l as [|l].
      * injection El as <-. replace (ig * nx + a + Z.of_nat 0) with (ig * nx + a) by lia. destruct (I7 (ig * nx + a)) as [-> ->]; [lia|]. now rewrite !upd_same.
      * cbn [nth_error] in El. replace (ig * nx + a + Z.of_nat (S l)) with (ig * nx + (a + 1) + Z.of_nat l) by lia. now apply I6.
    + intros i Hi. destruct (I7 i) as [-> ->]; [lia|]. rewrite !upd_diff by lia. split; reflexivity.
Qed.

Lemma read_shots_ok n nx scl scel : 0 <= n -> forall gs ts fuel hdr ig s pre, (length gs < fuel)%nat -> length hdr = 240%nat -> Forall (is_trace n) ts -> records ts gs ->
  0 <= nx -> Forall (fun g => glen g <= nx) gs ->
  exists s', read_shots fuel n nx scl scel ig hdr s (At pre (file_of ts)) = Ret (ig + Z.of_nat (length gs), s') /\ placed nx scl scel ig gs s s'.
Proof.
  intros Hn. induction gs as [|g gs IH]; intros ts fuel hdr ig s pre Hf Lhdr F R Hnx Fx; (destruct fuel as [|fuel]; [cbn in Hf; lia|]); cbn [read_shots].
  - apply records_nil in R. subst ts. rewrite file_of_nil, fread_end by (unfold TRCBYTES; lia). replace (0 =? TRCBYTES) with false by reflexivity. cbn [negb length].
    exists s. split; [f_equal; f_equal; lia|]. unfold placed. conjs; try (intros [|k]; discriminate); intros; conjs; reflexivity.
  - apply records_cons in R. destruct R as (rest & -> & R & Ne & S1 & S2). apply Forall_tail in F. destruct F as [Fg Fr]. destruct g as [|t g]; [congruence|].
    pose proof (Forall_inv Fg) as Ht. cbn [app]. rewrite file_of_cons, (fread_full 1 TRCBYTES) by (try (unfold TRCBYTES; lia); apply (trc_len n t Ht)).
    rewrite Z.eqb_refl. cbn [negb]. rewrite overlay_full by (rewrite (is_trace_len n t Ht); lia).
    rewrite (w_sx t (is_trace_len n t Ht)), (w_fldr t (is_trace_len n t Ht)), (w_selev t (is_trace_len n t Ht)).
    pose proof (Forall_inv Fx) as Lx. unfold glen in Lx. cbn [length] in Lx.
    match goal with |- context [read_shot ?fu _ _ _ _ _ _ _ _ ?s1 (At ?p _)] => destruct (read_shot_ok n t nx scl ig g t fu 0 s1 p rest Hn) as (s2 & E & I1 & I2 & I3 & I4 & I5 & I6 & I7) end.
    { unfold At. cbn [f_bytes]. rewrite !app_length. assert (length (g ++ rest) <= length (file_of (g ++ rest)))%nat.
      { apply file_of_len. apply Forall_app. split; [apply Forall_inv_tail in Fg; revert Fg|revert Fr]; apply Forall_impl; intros ? (H & _); exact H. }
      rewrite app_length in *. lia. }
    { assumption. } { assumption. }
    { apply Forall_forall. intros x Hx. apply S1; [now left|now right]. }
    { destruct rest as [|b r]; cbn; [exact I|]. apply (S2 t b r); [now left|reflexivity]. }
    rewrite E. replace (0 + Z.of_nat (S (length g)) =? 0) with false by (symmetry; apply Z.eqb_neq; lia).
    unfold set_source in I1, I2, I3, I4, I5, I7. cbn [isx xsrc zsrc xnx igx xrcv] in I1, I2, I3, I4, I5, I7. rewrite upd_same in I4.
    (* the effect of the first record *)
    assert (P1 : isx s2 ig = sx t /\ xsrc s2 ig = (inject_Z (sx t) * scl)%Q /\ zsrc s2 ig = (inject_Z (selev t) * scel)%Q /\ xnx s2 ig = Z.of_nat (S (length g))).
    { rewrite I1, I2, I3, I4, !upd_same. conjs; try reflexivity. }
    assert (P2 : forall i, i <> ig -> isx s2 i = isx s i /\ xsrc s2 i = xsrc s i /\ zsrc s2 i = zsrc s i /\ xnx s2 i = xnx s i).
    { intros i Hi. rewrite I1, I2, I3, (I5 i Hi), !upd_diff by assumption. conjs; reflexivity. }
    destruct rest as [|r rest].
    + cbn [is_nil after]. destruct gs as [|g' gs]; [|apply records_cons in R; destruct R as (rest & E1 & _ & N & _); destruct g'; [congruence|discriminate]].
      exists s2. split; [f_equal; f_equal; cbn [length]; lia|]. unfold placed. cbn [length]. conjs.
      * intros k g0 t0 Ek Et. destruct k as [|[|k]]; [|discriminate|discriminate]. injection Ek as <-. injection Et as <-. replace (ig + Z.of_nat 0) with ig by lia. exact P1.
      * intros k g0 l t0 Ek Et. destruct k as [|[|k]]; [|discriminate|discriminate]. injection Ek as <-. replace ((ig + Z.of_nat 0) * nx + Z.of_nat l) with (ig * nx + 0 + Z.of_nat l) by lia. now apply I6.
      * intros i Hi. apply P2. lia.
      * intros i Hi. apply I7. lia.
    + cbn [is_nil after]. pose proof (Forall_inv Fr) as Hr. replace (- TRCBYTES) with (- Z.of_nat (length (t_hdr r))) by (rewrite (is_trace_len n r Hr); reflexivity).
      rewrite seek_back, <- file_of_cons.
      match goal with |- context [read_shots fuel _ _ _ _ _ ?h ?ss (At ?p _)] => destruct (IH (r :: rest) fuel h (ig + 1) ss p) as (s4 & E4 & Q1 & Q2 & Q3 & Q4) end.
      { cbn in Hf. lia. } { exact (is_trace_len n t Ht). } { assumption. } { assumption. } { assumption. } { exact (Forall_inv_tail Fx). }
      exists s4. split.
      { etransitivity; [exact E4|]. f_equal. f_equal. cbn [length]. lia. }
      unfold placed. cbn [length]. conjs.
      * intros k g0 t0 Ek Et. destruct k as [|k].
        -- injection Ek as <-. injection Et as <-. replace (ig + Z.of_nat 0) with ig by lia. destruct (Q3 ig) as (-> & -> & -> & ->); [lia|]. exact P1.
        -- cbn [nth_error] in Ek. replace (ig + Z.of_nat (S k)) with (ig + 1 + Z.of_nat k) by lia. now apply Q1.
      * intros k g0 l t0 Ek Et. destruct k as [|k].
        -- injection Ek as <-. assert (l < length (t :: g))%nat by (apply nth_error_Some; congruence). cbn [length] in *.
           replace ((ig + Z.of_nat 0) * nx + Z.of_nat l) with (ig * nx + 0 + Z.of_nat l) by lia. destruct (Q4 (ig * nx + 0 + Z.of_nat l)) as (-> & ->); [lia|]. now apply I6.
        -- cbn [nth_error] in Ek. replace (ig + Z.of_nat (S k)) with (ig + 1 + Z.of_nat k) by lia. now apply Q2 with (g := g0).
      * intros i Hi. destruct (Q3 i) as (-> & -> & -> & ->); [lia|]. apply P2. lia.
      * intros i Hi. destruct (Q4 i) as (-> & ->); [nia|]. apply I7. nia.
Qed.
