(** Proofs about the tables of reciprocal traces. *)
From Coq Require Import ZArith QArith Qabs List Bool Lia Sorted.
From Verif Require Import ListAux FdKernels FdProofs FdOutputProofs Marchenko MarchenkoProofs SuFile SuSpec SuProofs SuProofs2.
Import ListNotations.
Local Open Scope Z_scope.

Section TABLE.
Variables (nxs : Z) (dest : Z * Z -> option bool) (place : Z * Z -> Z).
Hypothesis Hnxs : 0 <= nxs.
Definition put (t : reci) (p : Z * Z) : reci := match dest p with Some half => add_reci nxs (place p) (fst p) (snd p) half t | None => t end.
Definition at_place (b : Z) (p : Z * Z) : bool := match dest p with Some _ => place p =? b | None => false end.
Definition halved (b : Z) (p : Z * Z) : bool := match dest p with Some true => place p =? b | _ => false end.
Definition table_ok (t0 : reci) (P : list (Z * Z)) (t : reci) : Prop :=
  forall b, 0 <= b < nxs ->
    r_count t b = Z.of_nat (length (filter (at_place b) P)) /\
    (forall j p, nth_error (filter (at_place b) P) j = Some p -> r_rcv t (b * nxs + Z.of_nat j) = fst p /\ r_src t (b * nxs + Z.of_nat j) = snd p) /\
    r_mask t b = (if existsb (halved b) P then 1 # 2 else r_mask t0 b)%Q.
Definition table_frame (t0 t : reci) : Prop :=
  (forall i, ~ 0 <= i < nxs * nxs -> r_rcv t i = r_rcv t0 i /\ r_src t i = r_src t0 i) /\ (forall b, ~ 0 <= b < nxs -> r_count t b = r_count t0 b /\ r_mask t b = r_mask t0 b).

Lemma at_place_dest b p : at_place b p = true -> exists h, dest p = Some h /\ place p = b.
Proof. unfold at_place. destruct (dest p) as [h|]; [|discriminate]. intros H. exists h. split; [reflexivity|lia]. Qed.

Lemma put_ok t0 P t p : table_ok t0 P t -> table_frame t0 t -> (forall b, 0 <= b < nxs -> Z.of_nat (length (filter (at_place b) (P ++ [p]))) <= nxs) ->
  table_ok t0 (P ++ [p]) (put t p) /\ table_frame t0 (put t p).
Proof.
  intros T Fr Room. unfold put. destruct (dest p) as [half|] eqn:D.
  2: { split; [|assumption]. intros b Hb. destruct (T b Hb) as (T1 & T2 & T3). rewrite filter_app, existsb_app. cbn [filter existsb].
       assert (A : at_place b p = false) by (unfold at_place; now rewrite D).
       assert (A' : halved b p = false) by (unfold halved; now rewrite D).
       rewrite A, A', app_nil_r. cbn [orb]. rewrite ?orb_false_r. conjs; assumption. }
  unfold add_reci. destruct ((0 <=? place p) && (place p <? nxs)) eqn:B.
  2: { split; [|assumption]. intros b Hb. destruct (T b Hb) as (T1 & T2 & T3). rewrite filter_app, existsb_app. cbn [filter existsb].
       assert (Np : place p =? b = false) by (apply Z.eqb_neq; lia).
       assert (A : at_place b p = false) by (unfold at_place; now rewrite D).
       assert (A' : halved b p = false) by (unfold halved; rewrite D; destruct half; [assumption|reflexivity]).
       rewrite A, A', app_nil_r. cbn [orb]. rewrite ?orb_false_r. conjs; assumption. }
  assert (Bp : 0 <= place p < nxs) by lia. clear B.
  assert (Ap : at_place (place p) p = true) by (unfold at_place; rewrite D; apply Z.eqb_refl).
  assert (Rp : r_count t (place p) < nxs).
  { specialize (Room _ Bp). rewrite filter_app in Room. cbn [filter] in Room. rewrite Ap, app_length in Room. cbn [length] in Room. rewrite (proj1 (T _ Bp)). lia. }
  assert (Cp : 0 <= r_count t (place p)) by (rewrite (proj1 (T _ Bp)); lia).
  split.
  - intros b Hb. destruct (T b Hb) as (T1 & T2 & T3). cbn [r_count r_rcv r_src r_mask]. rewrite filter_app, existsb_app. cbn [filter existsb]. rewrite orb_false_r.
    destruct (Z.eq_dec (place p) b) as [<-|N].
    + rewrite Ap. conjs.
      * rewrite upd_same, app_length. cbn [length]. lia.
      * intros j q E. destruct (lt_eq_lt_dec j (length (filter (at_place (place p)) P))) as [[L|L]|L].
        -- rewrite nth_error_app1 in E by exact L. rewrite !upd_diff by lia. now apply T2.
        -- subst j. rewrite nth_error_app2, Nat.sub_diag in E by lia. injection E as <-. rewrite T1, !upd_same. split; reflexivity.
        -- assert (j < length (filter (at_place (place p)) P ++ [p]))%nat by (apply nth_error_Some; congruence). rewrite app_length in H. cbn [length] in H. lia.
      * assert (A' : halved (place p) p = half) by (unfold halved; rewrite D; destruct half; [apply Z.eqb_refl|reflexivity]). rewrite A'. destruct half; [rewrite upd_same, orb_true_r; reflexivity|rewrite orb_false_r; exact T3].
    + assert (A : at_place b p = false) by (unfold at_place; rewrite D; now apply Z.eqb_neq).
      assert (A' : halved b p = false) by (unfold halved; rewrite D; destruct half; [now apply Z.eqb_neq|reflexivity]).
      rewrite A, A', app_nil_r, orb_false_r. conjs.
      * rewrite upd_diff by lia. exact T1.
      * intros j q E. assert (j < length (filter (at_place b) P))%nat by (apply nth_error_Some; congruence).
        assert (r_count t b <= nxs). { specialize (Room _ Hb). rewrite filter_app, app_length in Room. lia. }
        rewrite !upd_diff by nia. now apply T2.
      * destruct half; [rewrite upd_diff by lia|]; exact T3.
  - destruct Fr as [F1 F2]. split.
    + intros i Hi. cbn [r_rcv r_src]. rewrite !upd_diff by nia. now apply F1.
    + intros b Hb. cbn [r_count r_mask]. rewrite upd_diff by lia. destruct half; [rewrite upd_diff by lia|]; now apply F2.
Qed.
Lemma puts_ok t0 : (forall b, 0 <= b < nxs -> r_count t0 b = 0) -> forall P, (forall b, 0 <= b < nxs -> Z.of_nat (length (filter (at_place b) P)) <= nxs) ->
  table_ok t0 P (fold_left put P t0) /\ table_frame t0 (fold_left put P t0).
Proof.
  intros C0. induction P as [|p P IH] using rev_ind; intros Room.
  - cbn [fold_left]. split; [|split; intros; split; reflexivity]. intros b Hb. cbn [filter existsb length]. conjs; [now apply C0| |reflexivity]. intros [|j] p; discriminate.
  - rewrite fold_left_app. cbn [fold_left].
    assert (Room' : forall b, 0 <= b < nxs -> Z.of_nat (length (filter (at_place b) P)) <= nxs).
    { intros b Hb. specialize (Room b Hb). rewrite filter_app, app_length in Room. lia. }
    destruct (IH Room') as [T F]. now apply put_ok.
Qed.
End TABLE.

(** all traces, in order *)
Definition all_traces (nshots : Z) (cnt : Z -> Z) : list (Z * Z) := flat_map (fun k => map (fun l => (k, l)) (range 0 (cnt k))) (range 0 nshots).
Lemma fold_all {S} (f : S -> Z -> Z -> S) cnt ks : forall s, fold_left (fun s k => fold_left (fun s l => f s k l) (range 0 (cnt k)) s) ks s =
  fold_left (fun s p => f s (fst p) (snd p)) (flat_map (fun k => map (fun l => (k, l)) (range 0 (cnt k))) ks) s.
Proof.
  induction ks as [|k ks IH]; intros s; [reflexivity|]. cbn [fold_left flat_map]. rewrite fold_left_app, IH. f_equal.
  generalize (range 0 (cnt k)). intros ls. revert s. induction ls as [|l ls IHl]; intros s; [reflexivity|]. cbn [fold_left map fst snd]. apply IHl.
Qed.
Lemma in_all nshots cnt k l : In (k, l) (all_traces nshots cnt) <-> is_recorded nshots cnt k l.
Proof.
  unfold all_traces, is_recorded. rewrite in_flat_map. split.
  - intros (k' & Hk & Hl). apply in_map_iff in Hl. destruct Hl as (l' & E & Hl). injection E as -> ->. apply in_range in Hk. apply in_range in Hl. tauto.
  - intros [Hk Hl]. exists k. split; [now apply in_range|]. apply in_map_iff. exists l. split; [reflexivity|now apply in_range].
Qed.
Lemma sorted_app {A} (R : A -> A -> Prop) a b : StronglySorted R a -> StronglySorted R b -> (forall x y, In x a -> In y b -> R x y) -> StronglySorted R (a ++ b).
Proof.
  intros Sa Sb H. induction Sa as [|x a Sa IH Fx]; [exact Sb|]. cbn. constructor.
  - apply IH. intros u v Hu Hv. apply H; [now right|assumption].
  - apply Forall_app. split; [assumption|]. apply Forall_forall. intros y Hy. apply H; [now left|assumption].
Qed.
Lemma sorted_filter {A} (R : A -> A -> Prop) f a : StronglySorted R a -> StronglySorted R (filter f a).
Proof.
  induction 1 as [|x a Sa IH Fx]; [constructor|]. cbn. destruct (f x); [|assumption]. constructor; [assumption|].
  apply Forall_forall. intros y Hy. apply filter_In in Hy. rewrite Forall_forall in Fx. now apply Fx.
Qed.
Lemma sorted_range a b : StronglySorted Z.lt (range a b).
Proof.
  unfold range. generalize (Z.to_nat (b - a)). intros n.
  assert (H : forall n s, StronglySorted Z.lt (map (fun k => a + Z.of_nat k) (seq s n))).
  { clear. induction n as [|n IH]; intros s; cbn [seq map]; constructor; [apply IH|]. apply Forall_forall. intros x Hx. apply in_map_iff in Hx. destruct Hx as (k & <- & Hk). apply in_seq in Hk. lia. }
  apply H.
Qed.
Lemma sorted_all nshots cnt : StronglySorted before (all_traces nshots cnt).
Proof.
  unfold all_traces. pose proof (sorted_range 0 nshots) as Sk. induction Sk as [|k ks Sk IH Fk]; [constructor|]. cbn [flat_map]. apply sorted_app; [|exact IH|].
  - pose proof (sorted_range 0 (cnt k)) as Sl. induction Sl as [|l ls Sl IHl Fl]; cbn [map]; constructor; [assumption|].
    apply Forall_forall. intros p Hp. apply in_map_iff in Hp. destruct Hp as (l' & <- & Hl'). rewrite Forall_forall in Fl. right. cbn. split; [reflexivity|now apply Fl].
  - intros x y Hx Hy. apply in_map_iff in Hx. destruct Hx as (l & <- & Hl). apply in_flat_map in Hy. destruct Hy as (k' & Hk' & Hy). apply in_map_iff in Hy. destruct Hy as (l' & <- & Hl').
    left. cbn. rewrite Forall_forall in Fk. now apply Fk.
Qed.

(** the traces that are stored *)
Section DEST.
Variables (opt nshots nx nxs : Z) (fxsb dxs : Q) (s : shots).
Definition dest_of (p : Z * Z) : option bool :=
  let '(k, l) := p in
  match find (fun m => (igx s (k * nx + l) =? isx s m) && (opt =? 1)) (range 0 nshots) with
  | Some m => if existsb (fun j => isx s k =? igx s (m * nx + j)) (range 0 (xnx s m)) then None else Some (opt =? 1)
  | None => Some false
  end.
Definition place_of (p : Z * Z) : Z := NINT ((xrcv s (fst p * nx + snd p) - fxsb) / dxs).
Lemma reci_trace_put k l t : reci_trace opt nshots nx nxs fxsb dxs s k l t = put nxs dest_of place_of t (k, l).
Proof. unfold reci_trace, put, dest_of, place_of. cbn [fst snd]. destruct (find _ _) as [m|]; [destruct (existsb _ _)|]; reflexivity. Qed.

Lemma find_first {A} (f : A -> bool) (R : A -> A -> Prop) l m : StronglySorted R l -> find f l = Some m -> In m l /\ f m = true /\ forall x, In x l -> f x = true -> x = m \/ R m x.
Proof.
  induction 1 as [|x l Sl IH Fx]; [discriminate|]. cbn [find]. destruct (f x) eqn:E.
  - intros [= <-]. split; [now left|]. split; [assumption|]. intros y [<-|Hy] _; [now left|right]. rewrite Forall_forall in Fx. now apply Fx.
  - intros H. destruct (IH H) as (I1 & I2 & I3). split; [now right|]. split; [assumption|]. intros y [<-|Hy] Hf; [congruence|]. now apply I3.
Qed.
Lemma dest_kept k l : (exists h, dest_of (k, l) = Some h) <-> (opt = 1 -> ~ already_there nshots nx (xnx s) (isx s) (igx s) k l).
Proof.
  unfold dest_of. destruct (find _ _) as [m|] eqn:Fd.
  - destruct (find_first _ _ _ _ (sorted_range 0 nshots) Fd) as (M1 & M2 & M3). apply in_range in M1. apply andb_true_iff in M2. destruct M2 as [M2 M4]. apply Z.eqb_eq in M2, M4.
    assert (Sm : shot_at nshots nx (isx s) (igx s) k l m).
    { split; [assumption|]. split; [congruence|]. intros m' Hm' E. destruct (M3 m') as [->|]; [apply in_range; lia|apply andb_true_iff; split; [apply Z.eqb_eq; congruence|now apply Z.eqb_eq]|lia|lia]. }
    destruct (existsb _ _) eqn:Ex.
    + split; [intros (h & Hh); discriminate|]. intros H. exfalso. apply (H M4). exists m. split; [exact Sm|].
      apply existsb_exists in Ex. destruct Ex as (j & Hj & E). apply in_range in Hj. apply Z.eqb_eq in E. exists j. split; [assumption|congruence].
    + split; [|intros _; eauto]. intros _ _ (m' & (A1 & A2 & A3) & j & Hj & E).
      assert (m' = m).
      { destruct (Z.lt_trichotomy m m') as [L|[L|L]]; [|congruence|]; exfalso.
        - apply (A3 m); [lia|congruence].
        - destruct Sm as (_ & _ & S3). apply (S3 m'); [lia|congruence]. }
      subst m'. assert (X : existsb (fun j => isx s k =? igx s (m * nx + j)) (range 0 (xnx s m)) = true).
      { apply existsb_exists. exists j. split; [now apply in_range|]. apply Z.eqb_eq. congruence. }
      congruence.
  - split; [|intros _; eauto]. intros _ O (m & (A1 & A2 & _) & _). apply find_none with (x := m) in Fd; [|now apply in_range].
    rewrite A2, Z.eqb_refl, O in Fd. discriminate.
Qed.
Lemma dest_half k l : dest_of (k, l) = Some true <-> opt = 1 /\ ~ already_there nshots nx (xnx s) (isx s) (igx s) k l /\ exists m, 0 <= m < nshots /\ isx s m = igx s (k * nx + l).
Proof.
  split.
  - intros H. assert (K : exists h, dest_of (k, l) = Some h) by eauto. pose proof (proj1 (dest_kept k l) K) as K'. clear K. revert H. unfold dest_of. destruct (find _ _) as [m|] eqn:Fd; [|discriminate].
    destruct (find_some _ _ Fd) as [M1 M2]. apply in_range in M1. apply andb_true_iff in M2. destruct M2 as [M2 M4]. apply Z.eqb_eq in M2, M4.
    intros _. split; [assumption|]. split; [now apply K'|]. exists m. split; [assumption|congruence].
  - intros (O & N & m & Hm & E). assert (K : exists h, dest_of (k, l) = Some h) by (apply dest_kept; intros _; exact N). destruct K as (h & K). rewrite K. f_equal. revert K.
    unfold dest_of. destruct (find _ _) as [m'|] eqn:Fd.
    + destruct (existsb _ _); [discriminate|]. intros [= <-]. rewrite O. reflexivity.
    + apply find_none with (x := m) in Fd; [|now apply in_range]. rewrite E, Z.eqb_refl, O in Fd. discriminate.
Qed.
Lemma reciprocal_filter b : reciprocal nshots nx (xnx s) (isx s) (igx s) (fun k l => place_of (k, l)) opt b (filter (at_place dest_of place_of b) (all_traces nshots (xnx s))).
Proof.
  split; [apply sorted_filter, sorted_all|]. intros k l. rewrite filter_In, in_all. split.
  - intros [H1 H2]. apply at_place_dest in H2. destruct H2 as (h & H2 & H3). split; [assumption|]. split; [assumption|]. apply dest_kept. eauto.
  - intros (H1 & H2 & H3). split; [assumption|]. apply (proj2 (dest_kept k l)) in H3. destruct H3 as (h & H3). unfold at_place. rewrite H3. now apply Z.eqb_eq.
Qed.
End DEST.

Lemma sorted_unique {A} (R : A -> A -> Prop) : (forall x, ~ R x x) -> (forall x y z, R x y -> R y z -> R x z) -> forall a b, StronglySorted R a -> StronglySorted R b -> (forall x, In x a <-> In x b) -> a = b.
Proof.
  intros Irr Tr. induction a as [|x a IH]; intros b Sa Sb H.
  - destruct b as [|y b]; [reflexivity|]. exfalso. apply (H y). now left.
  - destruct b as [|y b]; [exfalso; apply (H x); now left|]. inversion Sa as [|? ? Sa' Fa]; subst. inversion Sb as [|? ? Sb' Fb]; subst.
    rewrite Forall_forall in Fa, Fb.
    assert (x = y).
    { destruct (proj1 (H x) (or_introl eq_refl)) as [E|Hx]; [congruence|]. destruct (proj2 (H y) (or_introl eq_refl)) as [E|Hy]; [congruence|].
      exfalso. apply (Irr x). apply (Tr x y x); [now apply Fa|now apply Fb]. }
    subst y. f_equal. apply IH; try assumption. intros z. split; intros Hz.
    + destruct (proj1 (H z) (or_intror Hz)) as [E|E]; [subst z; exfalso; apply (Irr x); now apply Fa|assumption].
    + destruct (proj2 (H z) (or_intror Hz)) as [E|E]; [subst z; exfalso; apply (Irr x); now apply Fb|assumption].
Qed.
