(** Properties of the mute of snapshots (C99). *)
From Coq Require Import ZArith Reals List Bool Lia Lra.
From Verif Require Import ListAux FdKernels FdProofs FdOutputProofs Marchenko MakemodProofs PropertiesDft Kxwfilt PropertiesKxwfilt Mutesnap.
Import ListNotations.
Local Open Scope Z_scope.

(** ** specification *)
(** the muted sample when it lies j samples inside the mute: the taper falls along the first smooth samples, then zero *)
Definition muted (smooth j : Z) (v : R) : R := if j <? 0 then v else if j <? smooth then (v * ((1 + cos (PI * IZR (j + 1)%Z / IZR smooth)) / 2))%R else 0%R.

(** ** C99 *)
(** C99: the arrival by maximum is the first of the largest samples of the first half. *)
Theorem C99_maximum a nt : 2 <= nt -> let k := topdet a nt in 0 <= k < nt / 2 /\ (forall i, 0 <= i < nt / 2 -> (Rabs (a i) <= Rabs (a k))%R) /\ (forall i, 0 <= i < k -> (Rabs (a i) < Rabs (a k))%R).
Proof.
  intros Hn k. assert (H2 : 1 <= nt / 2) by (apply Z.div_le_lower_bound; lia). unfold k, topdet.
  set (f := fun (s : Z * R) it => if Rlt_dec (snd s) (Rabs (a it)) then (it, Rabs (a it)) else s).
  assert (G : (fun e (s : Z * R) => snd s = Rabs (a (fst s)) /\ 0 <= fst s < e /\ (forall i, 0 <= i < e -> (Rabs (a i) <= Rabs (a (fst s)))%R) /\ (forall i, 0 <= i < fst s -> (Rabs (a i) < Rabs (a (fst s)))%R)) (nt / 2) (fold_left f (range 1 (nt / 2)) (0, Rabs (a 0)))).
  { apply fold_range_inv; [exact H2| |].
    - cbn [fst snd]. split; [reflexivity|]. split; [lia|]. split; intros i Hi; [replace i with 0 by lia; lra|lia].
    - intros e [ind m] He (E & B & M & F). cbn [fst snd] in *. unfold f. cbn [snd]. destruct (Rlt_dec m (Rabs (a e))) as [L|L]; cbn [fst snd].
      + split; [reflexivity|]. split; [lia|]. split; intros i Hi.
        * destruct (Z.eq_dec i e) as [->|Q]; [lra|]. specialize (M i ltac:(lia)). lra.
        * specialize (M i ltac:(lia)). lra.
      + split; [exact E|]. split; [lia|]. split; [|exact F]. intros i Hi. destruct (Z.eq_dec i e) as [->|Q]; [lra|]. apply M. lia. }
  destruct G as (_ & B & M & F). auto.
Qed.
Print Assumptions C99_maximum.
Lemma find_range p : forall n a, let r := find p (range a (a + Z.of_nat n)) in match r with Some k => a <= k < a + Z.of_nat n /\ p k = true /\ forall i, a <= i < k -> p i = false | None => forall i, a <= i < a + Z.of_nat n -> p i = false end.
Proof.
  induction n as [|n IH]; intros a; [rewrite range_nil by lia; cbn; intros; lia|].
  rewrite (range_split a (a + 1) (a + Z.of_nat (S n))) by lia. rewrite (range_snoc a a) by lia. rewrite (range_nil a a) by lia. cbn [app find]. destruct (p a) eqn:E.
  - split; [lia|]. split; [exact E|]. intros; lia.
  - specialize (IH (a + 1)). replace (a + Z.of_nat (S n)) with (a + 1 + Z.of_nat n) by lia. cbv zeta in IH. destruct (find p (range (a + 1) (a + 1 + Z.of_nat n))) as [k|].
    + destruct IH as (B & T & F). split; [lia|]. split; [exact T|]. intros i Hi. destruct (Z.eq_dec i a) as [->|Q]; [exact E|apply F; lia].
    + intros i Hi. destruct (Z.eq_dec i a) as [->|Q]; [exact E|apply IH; lia].
Qed.
(** C99: the arrival by tolerance is the first sample of the first half above the tolerance, 0 if there is none. *)
Theorem C99_tolerance a nt tol : 0 <= nt -> let k := farrdet a nt tol in
  (0 <= k < nt / 2 /\ (tol < Rabs (a k))%R /\ (forall i, 0 <= i < k -> (Rabs (a i) <= tol)%R)) \/ (k = 0 /\ forall i, 0 <= i < nt / 2 -> (Rabs (a i) <= tol)%R).
Proof.
  intros Hn k. assert (H2 : 0 <= nt / 2) by (apply Z.div_pos; lia). unfold k, farrdet. pose proof (find_range (fun it => if Rlt_dec tol (Rabs (a it)) then true else false) (Z.to_nat (nt / 2)) 0) as G. cbv zeta in G. replace (0 + Z.of_nat (Z.to_nat (nt / 2))) with (nt / 2) in G by lia.
  destruct (find _ (range 0 (nt / 2))) as [r|].
  - left. destruct G as (B & T & F). split; [exact B|]. split; [destruct (Rlt_dec tol (Rabs (a r))); [assumption|discriminate]|]. intros i Hi. specialize (F i Hi). cbv beta in F. destruct (Rlt_dec tol (Rabs (a i))); [discriminate|lra].
  - right. split; [reflexivity|]. intros i Hi. specialize (G i Hi). cbv beta in G. destruct (Rlt_dec tol (Rabs (a i))); [discriminate|lra].
Qed.
Print Assumptions C99_tolerance.
Lemma center_fold nth (g : Z -> R -> R) a h : a <= nth / 2 + 1 -> 0 <= nth -> forall t, fold_left (fun h it => let h := upd h it (g it (h it)) in upd h (nth - it) (g it (h (nth - it)))) (range a (nth / 2 + 1)) h t =
  if a <=? Z.min t (nth - t) then (if t =? nth - t then g t (g t (h t)) else g (Z.min t (nth - t)) (h t)) else h t.
Proof.
  intros Ha Hn. pose proof (Z.div_mod nth 2 ltac:(lia)) as DM. pose proof (Z.mod_pos_bound nth 2 ltac:(lia)) as MB.
  set (f := fun (h : Z -> R) it => let h := upd h it (g it (h it)) in upd h (nth - it) (g it (h (nth - it)))).
  assert (G : (fun e (s : Z -> R) => forall t, s t = if (a <=? Z.min t (nth - t)) && (Z.min t (nth - t) <? e) then (if t =? nth - t then g t (g t (h t)) else g (Z.min t (nth - t)) (h t)) else h t) (nth / 2 + 1) (fold_left f (range a (nth / 2 + 1)) h)).
  { apply fold_range_inv; [exact Ha| |].
    - intros t. destruct (Z.leb_spec a (Z.min t (nth - t))); destruct (Z.ltb_spec (Z.min t (nth - t)) a); try lia; reflexivity.
    - intros e s He IH t. unfold f. cbv zeta. rewrite !upd_eq. destruct (Z.eqb_spec t (nth - e)) as [E1|E1].
      + replace (Z.min t (nth - t)) with e by lia. destruct (Z.leb_spec a e); [|lia]. destruct (Z.ltb_spec e (e + 1)); [|lia]. cbn [andb]. destruct (Z.eqb_spec (nth - e) e) as [E2|E2].
        * destruct (Z.eqb_spec t (nth - t)); [|lia]. replace t with e by lia. f_equal. f_equal. rewrite IH. replace (Z.min e (nth - e)) with e by lia. destruct (Z.ltb_spec e e); [lia|]. rewrite andb_false_r. reflexivity.
        * destruct (Z.eqb_spec t (nth - t)); [lia|]. f_equal. rewrite IH. replace (Z.min (nth - e) (nth - (nth - e))) with e by lia. destruct (Z.ltb_spec e e); [lia|]. rewrite andb_false_r. now subst t.
      + destruct (Z.eqb_spec t e) as [E2|E2].
        * subst t. replace (Z.min e (nth - e)) with e by lia. destruct (Z.leb_spec a e); [|lia]. destruct (Z.ltb_spec e (e + 1)); [|lia]. cbn [andb]. destruct (Z.eqb_spec e (nth - e)); [lia|]. f_equal. rewrite IH. replace (Z.min e (nth - e)) with e by lia. destruct (Z.ltb_spec e e); [lia|]. rewrite andb_false_r. reflexivity.
        * rewrite IH. replace (Z.min t (nth - t) <? e + 1) with (Z.min t (nth - t) <? e); [reflexivity|]. destruct (Z.ltb_spec (Z.min t (nth - t)) e); destruct (Z.ltb_spec (Z.min t (nth - t)) (e + 1)); try reflexivity; lia. }
  intros t. rewrite (G t). replace (Z.min t (nth - t) <? nth / 2 + 1) with true by (symmetry; apply Z.ltb_lt; lia). now rewrite andb_true_r.
Qed.
(** C99: the mute around the centre of the samples: symmetric in time; the length on each side is the number ind of samples from the centre to the arrival (nth - ind if less), less shift and smooth.  The middle sample of an even number of samples is visited twice. *)
Theorem C99_center nth ind shift smooth h t : 0 <= nth -> let len := Z.max (Z.min (nth - ind) ind - shift - smooth) 0 in let j := Z.min t (nth - t) - (nth / 2 - len + 1) in
  mute_center nth ind shift smooth (costaper smooth) h t = if 2 * t =? nth then muted smooth j (muted smooth j (h t)) else muted smooth j (h t).
Proof.
  intros Hn len j. unfold mute_center. cbv zeta. fold len. change (rmt nth ind shift smooth) with len. rewrite (center_fold nth (fun it v => if it - (nth / 2 - len + 1) <? smooth then (v * costaper smooth (it - (nth / 2 - len + 1))%Z)%R else 0%R)) by (unfold len; lia).
  replace (2 * t =? nth) with (t =? nth - t) by (destruct (Z.eqb_spec t (nth - t)); destruct (Z.eqb_spec (2 * t) nth); try reflexivity; lia).
  assert (C : forall i, costaper smooth i = ((1 + cos (PI * IZR (i + 1) / IZR smooth)) / 2)%R). { intros i. unfold costaper. rewrite plus_IZR. replace ((IZR i + 1) * (PI / IZR smooth))%R with (PI * (IZR i + 1) / IZR smooth)%R by (unfold Rdiv; ring). lra. }
  unfold muted. destruct (Z.leb_spec (nth / 2 - len + 1) (Z.min t (nth - t))) as [L|L].
  - destruct (Z.ltb_spec j 0); [unfold j in *; lia|]. destruct (Z.eqb_spec t (nth - t)) as [E|E].
    + replace (t - (nth / 2 - len + 1)) with j by (unfold j; lia). rewrite C. reflexivity.
    + fold j. rewrite C. reflexivity.
  - destruct (Z.ltb_spec j 0); [|unfold j in *; lia]. destruct (t =? nth - t); reflexivity.
Qed.
Print Assumptions C99_center.
(** C99: the mute around the centre stays inside the samples and inside the taper. *)
Theorem C99_center_in_bounds nth ind shift smooth : 0 <= nth -> 0 <= shift -> 0 <= smooth -> (forall i, In i (center_writes nth ind shift smooth) -> 0 <= i < nth) /\ (forall i, In i (center_taper_reads nth ind shift smooth) -> 0 <= i < smooth).
Proof.
  intros Hn H1 H2. pose proof (Z.div_mod nth 2 ltac:(lia)) as DM. pose proof (Z.mod_pos_bound nth 2 ltac:(lia)) as MB. assert (B : 0 <= rmt nth ind shift smooth <= nth / 2) by (unfold rmt; lia). unfold center_writes, center_taper_reads. cbv zeta. split; intros i H; apply in_flat_map in H; destruct H as (it & Hit & H); apply in_range in Hit.
  - destruct H as [H|[H|[]]]; lia.
  - destruct (Z.ltb_spec (it - (nth / 2 - rmt nth ind shift smooth + 1)) smooth); [destruct H as [H|[]]; lia|destruct H].
Qed.
Print Assumptions C99_center_in_bounds.
(** C99: the mute at the beginning: zero up to smooth samples before arrival - shift; unchanged from arrival - shift on; all whatever the taper array holds. *)
Theorem C99_start ind shift smooth tap h t : 0 <= smooth -> 0 <= t ->
  (t < ind - shift - smooth -> mute_start ind shift smooth tap h t = 0%R) /\ (ind - shift <= t -> mute_start ind shift smooth tap h t = h t) /\
  (smooth = 0 -> mute_start ind shift smooth tap h t = if t <? ind - shift then 0%R else h t).
Proof.
  intros Hs Ht. unfold mute_start. rewrite (upd_range (fun _ _ => 0%R)). rewrite (upd_range (fun it v => (v * tap (it - (ind - shift) - 1)%Z)%R)).
  destruct (Z.leb_spec 0 t); [|lia]. destruct (Z.ltb_spec t (Z.max (ind - shift - smooth) 0)); destruct (Z.leb_spec (Z.max (ind - shift - smooth) 0) t); destruct (Z.ltb_spec t (Z.max (ind - shift) 0)); destruct (Z.ltb_spec t (ind - shift)); cbn [andb]; repeat split; intros; try lia; reflexivity.
Qed.
Print Assumptions C99_start.
(** C99: the samples written by the mute at the beginning are inside the trace when the arrival is. *)
Theorem C99_start_in_bounds nth ind shift smooth i : 0 <= smooth -> 0 <= shift -> ind <= nth -> In i (start_writes ind shift smooth) -> 0 <= i < nth.
Proof. intros Hs H1 Hi H. unfold start_writes in H. apply in_app_or in H. rewrite !in_range in H. lia. Qed.
Print Assumptions C99_start_in_bounds.
(** C99 refuted for the taper of the mute at the beginning: not some but all elements read lie before the taper array, and there are such reads whenever the taper is used. *)
Theorem C99_start_taper_refuted ind shift smooth : (forall i, In i (start_taper_reads ind shift smooth) -> i < 0) /\ (0 < smooth -> 0 < ind - shift -> start_taper_reads ind shift smooth <> []).
Proof.
  unfold start_taper_reads. split.
  - intros i H. apply in_map_iff in H. destruct H as (it & E & H). apply in_range in H. lia.
  - intros Hs Hi E. assert (I : In (ind - shift - 1 - (ind - shift) - 1) (map (fun it => it - (ind - shift) - 1) (range (Z.max (ind - shift - smooth) 0) (Z.max (ind - shift) 0)))).
    { apply in_map_iff. exists (ind - shift - 1). split; [lia|apply in_range; lia]. }
    rewrite E in I. destruct I.
Qed.
Print Assumptions C99_start_taper_refuted.
(** 100 samples, arrival 40, shift 5, smooth 5: 30 samples are muted on each side; sample 45 is zero, sample 20 unchanged, and the taper is used *)
Example C99_nonvacuous : (mute_center 100 40 5 5 (costaper 5) (fun _ => 1%R) 45 = 0%R) /\ mute_center 100 40 5 5 (costaper 5) (fun _ => 1%R) 20 = 1%R /\ In 3 (center_taper_reads 100 40 5 5) /\ start_taper_reads 40 5 5 = [-6; -5; -4; -3; -2].
Proof. rewrite !C99_center by lia. repeat split; try reflexivity. vm_compute. tauto. Qed.
