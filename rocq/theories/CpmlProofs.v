(** Proofs about the perfectly matched layers. *)
From Coq Require Import ZArith Reals List Lia Lra Bool FunctionalExtensionality.
From Verif Require Import ListAux FdKernels FdProofs FdOutputProofs Marchenko MarchenkoProofs ReadModel ViscoSpec ViscoProofs CpmlSpec Cpml.
Import ListNotations.
Local Open Scope Z_scope.

(** ** loops over points *)
Lemma points_view {S V} (view : S -> V) (step : S -> Z * Z -> S) (F : V -> V) (t : Z * Z) l : NoDup l ->
  (forall s a, In a l -> a <> t -> view (step s a) = view s) -> (forall s, In t l -> view (step s t) = F (view s)) ->
  forall s, (In t l -> view (fold_left step l s) = F (view s)) /\ (~ In t l -> view (fold_left step l s) = view s).
Proof.
  induction l as [|a l IH]; intros ND Ho Ht s; cbn [fold_left].
  - split; [intros []|reflexivity].
  - inversion ND as [|? ? N ND']; subst.
    destruct (IH ND' (fun s a H => Ho s a (or_intror H)) (fun s H => Ht s (or_intror H)) (step s a)) as [I1 I2].
    assert (E : {a = t} + {a <> t}) by (decide equality; apply Z.eq_dec). destruct E as [->|E].
    + split; [intros _|intros H; exfalso; apply H; now left]. rewrite I2 by exact N. apply Ht. now left.
    + split.
      * intros [E'|H]; [contradiction|]. rewrite I1 by exact H. rewrite Ho; [reflexivity|now left|exact E].
      * intros H. rewrite I2 by (intros H'; apply H; now right). apply Ho; [now left|exact E].
Qed.
Lemma NoDup_columns (g : Z -> list Z) l : NoDup l -> (forall x, NoDup (g x)) -> NoDup (flat_map (fun x => map (pair x) (g x)) l).
Proof.
  induction l as [|x l IH]; intros N Hg; cbn [flat_map]; [constructor|]. inversion N; subst. apply NoDup_app_iff.
  - apply FinFun.Injective_map_NoDup; [|apply Hg]. intros a c E. now injection E.
  - now apply IH.
  - intros c Hc Hc'. apply in_map_iff in Hc. destruct Hc as (z & <- & _). apply in_flat_map in Hc'. destruct Hc' as (y & Hy & Hc). apply in_map_iff in Hc. destruct Hc as (z' & E & _). injection E as -> ->. contradiction.
Qed.
Lemma in_columns (g : Z -> list Z) l x z : In (x, z) (flat_map (fun x => map (pair x) (g x)) l) <-> In x l /\ In z (g x).
Proof.
  rewrite in_flat_map. split.
  - intros (y & Hy & H). apply in_map_iff in H. destruct H as (z' & E & H). injection E as -> ->. now split.
  - intros [H1 H2]. exists x. split; [exact H1|]. now apply in_map.
Qed.
Lemma address n1 x z x' z' : 0 <= z < n1 -> 0 <= z' < n1 -> x * n1 + z = x' * n1 + z' -> x = x' /\ z = z'.
Proof. intros H H' E. assert (x = x') by nia. subst. lia. Qed.

(** ** coefficients *)
Section COEF.
Variables (b : bnd) (w : pml).
Notation L := (IZR (npml b) * p_dx w)%R.
Notation sig xi := (damping (p_m w) (p_R w) (p_cp w) L xi).
Notation kap xi := (stretch (p_m w) xi).
Lemma clip xi : (if Rlt_dec 1 xi then 1%R else xi) = Rmin 1 xi.
Proof. unfold Rmin. destruct (Rlt_dec 1 xi), (Rle_dec 1 xi); try reflexivity; lra. Qed.
Lemma stretch_pos xi : (1 < kap xi)%R.
Proof. unfold stretch. assert (0 < Rpower (Rmin 1 xi) (exponent (p_m w)))%R by apply exp_pos. lra. Qed.
Lemma layer_coef_ok xi : layer_coef b w xi =
  (fading (sig xi) (kap xi) (p_dt w), (if Rlt_dec (/ 10 ^ 30) (sig xi) then (fading (sig xi) (kap xi) (p_dt w) - 1) / kap xi else 0)%R, (/ kap xi)%R).
Proof.
  unfold layer_coef. rewrite clip. pose proof (stretch_pos xi) as Hk.
  change (sigma_max b w * Rpower (Rmin 1 xi) (m_cpml w))%R with (sig xi).
  replace (1 + (kmax - 1) * Rpower (Rmin 1 xi) (m_cpml w))%R with (kap xi) by (unfold stretch, kmax; change (m_cpml w) with (exponent (p_m w)); ring).
  unfold amax. replace (sig xi + kap xi * (0 * (1 - Rmin 1 xi)))%R with (sig xi) by ring.
  replace (- (sig xi / kap xi + 0 * (1 - Rmin 1 xi)) * p_dt w)%R with (- (sig xi / kap xi) * p_dt w)%R by ring.
  fold (fading (sig xi) (kap xi) (p_dt w)). generalize (fading (sig xi) (kap xi) (p_dt w)). intros e.
  destruct (Rlt_dec (/ 10 ^ 30) (sig xi)) as [H|H]; (apply (f_equal2 pair); [apply (f_equal2 pair); [reflexivity|try reflexivity]|unfold Rdiv; ring]).
  assert (0 < / 10 ^ 30)%R by (apply Rinv_0_lt_compat, pow_lt; lra). field. lra.
Qed.
Definition at_coefs (k : coefs) (i : Z) : R * R * R := (cb k i, cc k i, cik k i).
Lemma set_coefs_ok lo hi xi k i : at_coefs (set_coefs b w lo hi xi k) i = if (lo <=? i) && (i <? hi) then layer_coef b w (xi i) else at_coefs k i.
Proof.
  unfold set_coefs. rewrite (range_view (fun k => at_coefs k i) _ (fun _ => layer_coef b w (xi i)) i).
  - reflexivity.
  - intros s j Hj. destruct (layer_coef b w (xi j)) as [[e c] ik]. unfold at_coefs. cbn [cb cc cik]. now rewrite !upd_other by congruence.
  - intros s. destruct (layer_coef b w (xi i)) as [[e c] ik]. unfold at_coefs. cbn [cb cc cik]. now rewrite !upd_same.
Qed.
End COEF.

(** ** the memory of one point *)
Section POINT.
Variables (m r c L dt xi : R) (d : nat -> R).
Notation sig := (damping m r c L xi).
Notation kap := (stretch m xi).
Let B := fading sig kap dt.
Let C : R := if Rlt_dec (/ 10 ^ 30) sig then ((B - 1) / kap)%R else 0%R.
Definition memory (k : nat) : R := (C * upto k (fun j => B ^ (k - 1 - j) * d j))%R.
Lemma memory_0 : memory 0 = 0%R. Proof. unfold memory. cbn [upto]. ring. Qed.
Lemma memory_S k : memory (S k) = (B * memory k + C * d k)%R.
Proof.
  unfold memory. cbn [upto]. replace (S k - 1 - k)%nat with 0%nat by lia. cbn [pow].
  rewrite (upto_ext k (fun j => B ^ (S k - 1 - j) * d j)%R (fun j => B * (B ^ (k - 1 - j) * d j))%R).
  - rewrite upto_scale. ring.
  - intros j Hj. replace (S k - 1 - j)%nat with (S (k - 1 - j)) by lia. cbn [pow]. ring.
Qed.
Lemma memory_used k : (/ kap * d k + memory (S k))%R = layer_derivative m r c L dt xi d k.
Proof.
  unfold layer_derivative, memory, C. fold B. assert (1 < kap)%R by (unfold stretch; assert (0 < Rpower (Rmin 1 xi) (exponent m))%R by apply exp_pos; lra).
  destruct (Rlt_dec (/ 10 ^ 30) sig).
  - unfold stretched. rewrite (upto_ext (S k) (fun j => B ^ (S k - 1 - j) * d j)%R (fun j => B ^ (k - j) * d j)%R).
    + field. lra.
    + intros j _. now replace (S k - 1 - j)%nat with (k - j)%nat by lia.
  - field. lra.
Qed.
End POINT.

(** ** the grid *)
Section GRID.
Variables (nx nz : Z) (b : bnd) (w : pml).
Hypothesis Hs : 1 <= nx /\ 1 <= nz /\ 1 <= npml b.
Let g := layout nx nz 4 b.
Notation n := (npml b).
Notation n1 := (naz g).
Notation n2 := (nax g).
Notation L := (IZR n * p_dx w)%R.
Lemma pad_values s : (s =? 2 = true -> pad b s = n) /\ 0 <= pad b s.
Proof. unfold pad, absorbing. split; [intros ->; now rewrite orb_true_r|]. destruct (_ || _); lia. Qed.
Ltac dims := pose proof (pad_values (lef b)) as [?Pl ?Pl']; pose proof (pad_values (rig b)) as [?Pr ?Pr']; pose proof (pad_values (top b)) as [?Pt ?Pt']; pose proof (pad_values (bot b)) as [?Pb ?Pb'];
  change (4 / 2) with 2 in *.
Ltac sides := destruct (lef b =? 2), (rig b =? 2), (top b =? 2), (bot b =? 2);
  repeat match goal with H : true = true -> _ |- _ => specialize (H eq_refl) | H : false = true -> _ |- _ => clear H end.
Ltac fields := cbn [layout naz nax ioXx ioXz ieXx ieXz ioZx ioZz ieZx ieZz ioPx ioPz iePx iePz FdKernels.nx FdKernels.nz] in *.

Lemma in_cells first last o e size i : o <= e -> (first =? 2 = true -> 0 <= o - n) -> (last =? 2 = true -> e + n <= size) -> reach size n o e i = true ->
  mask (first =? 2) (last =? 2) o e i = beyond first last n o e i.
Proof.
  unfold reach, beyond, mask. intros H Hf Hl Hr. apply andb_prop in Hr. destruct Hr as [R1 R2]. apply Z.leb_le in R1. apply Z.ltb_lt in R2.
  destruct (first =? 2), (last =? 2); cbn [andb orb]; try (specialize (Hf eq_refl)); try (specialize (Hl eq_refl));
  repeat match goal with |- context[?a <=? ?c] => destruct (Z.leb_spec a c) | |- context[?a <? ?c] => destruct (Z.ltb_spec a c) end; cbn [andb orb]; try reflexivity; lia.
Qed.
Lemma reach_in size o e i : In i (range (Z.max (o - n) 0) (Z.min (e + n) size)) <-> reach size n o e i = true.
Proof. rewrite in_range. unfold reach. rewrite andb_true_iff, Z.leb_le, Z.ltb_lt. lia. Qed.

Section CELLS.
Variables (ox ex oz ez : Z).
Hypothesis Hx : ox <= ex /\ (lef b =? 2 = true -> 0 <= ox - n) /\ (rig b =? 2 = true -> ex + n <= n2).
Hypothesis Hz : oz <= ez /\ 0 <= oz /\ ez <= n1 /\ (top b =? 2 = true -> 0 <= oz - n) /\ (bot b =? 2 = true -> ez + n <= n1).
Definition hit x z := reach n2 n ox ex x && reach n1 n oz ez z && (beyond (lef b) (rig b) n ox ex x || beyond (top b) (bot b) n oz ez z).
Lemma cells_hit x z : In (x, z) (cells g b ox ex oz ez) <-> hit x z = true.
Proof.
  unfold cells. rewrite in_columns, reach_in. unfold hit. rewrite !andb_true_iff, orb_true_iff. unfold rows, in_x.
  split.
  - intros [Rx H]. rewrite (in_cells _ _ _ _ _ _ (proj1 Hx) (proj1 (proj2 Hx)) (proj2 (proj2 Hx)) Rx) in H.
    destruct (beyond (lef b) (rig b) n ox ex x).
    + apply reach_in in H. auto.
    + assert (Rz : reach n1 n oz ez z = true).
      { apply reach_in, in_range. apply in_app_or in H. destruct Hz as (Z1 & Z2 & Z3 & Zt & Zb). destruct H as [H|H]; [destruct (top b =? 2); [|contradiction]|destruct (bot b =? 2); [|contradiction]]; apply in_range in H; lia. }
      split; [auto|right]. rewrite <- (in_cells _ _ _ _ _ _ (proj1 Hz) (proj1 (proj2 (proj2 (proj2 Hz)))) (proj2 (proj2 (proj2 (proj2 Hz)))) Rz).
      unfold mask. apply in_app_or in H. destruct H as [H|H]; [destruct (top b =? 2); [|contradiction]|destruct (bot b =? 2); [|contradiction]]; apply in_range in H.
      * cbn [andb]. destruct (Z.ltb_spec z oz); [reflexivity|lia].
      * cbn [andb]. destruct (Z.leb_spec ez z); [now rewrite orb_true_r|lia].
  - intros [[Rx Rz] H]. split; [exact Rx|]. rewrite (in_cells _ _ _ _ _ _ (proj1 Hx) (proj1 (proj2 Hx)) (proj2 (proj2 Hx)) Rx).
    destruct (beyond (lef b) (rig b) n ox ex x); [now apply reach_in|]. destruct H as [H|H]; [discriminate|].
    rewrite <- (in_cells _ _ _ _ _ _ (proj1 Hz) (proj1 (proj2 (proj2 (proj2 Hz)))) (proj2 (proj2 (proj2 (proj2 Hz)))) Rz) in H.
    apply reach_in, in_range in Rz. apply in_or_app. unfold mask in H. apply orb_prop in H. destruct H as [H|H]; apply andb_prop in H; destruct H as [-> H]; [left|right]; apply in_range.
    + apply Z.ltb_lt in H. lia.
    + apply Z.leb_le in H. lia.
Qed.
Lemma cells_NoDup : NoDup (cells g b ox ex oz ez).
Proof.
  apply NoDup_columns; [apply range_NoDup|]. intros x. unfold rows. destruct (in_x b ox ex x); [apply range_NoDup|].
  apply NoDup_app_iff; [destruct (top b =? 2); [apply range_NoDup|constructor]|destruct (bot b =? 2); [apply range_NoDup|constructor]|].
  intros z H1 H2. destruct (top b =? 2); [|contradiction]. destruct (bot b =? 2); [|contradiction]. apply in_range in H1, H2. lia.
Qed.
Lemma cells_rows x z : In (x, z) (cells g b ox ex oz ez) -> 0 <= z < n1.
Proof. rewrite cells_hit. unfold hit. rewrite !andb_true_iff. intros [[_ H] _]. apply reach_in, in_range in H. lia. Qed.
End CELLS.

(** the coefficients in the layers *)
Lemma faces_x_ok x : beyond (lef b) (rig b) n (ioXx g) (ieXx g) x = true -> at_coefs (faces_x g b w) x = layer_coef b w (at_face n (ioXx g) (ieXx g) x).
Proof.
  intros H. unfold faces_x, beyond, at_face in *. unfold g in *. dims. fields. change (4 / 2) with 2 in *.
  sides; cbn [andb orb] in H; try discriminate; rewrite ?orb_false_r in H; repeat rewrite set_coefs_ok;
  repeat match goal with |- context[?a <=? ?c] => destruct (Z.leb_spec a c) | |- context[?a <? ?c] => destruct (Z.ltb_spec a c) end; cbn [andb orb]; try reflexivity; try lia.
Qed.
Lemma faces_z_ok z : beyond (top b) (bot b) n (ioZz g) (ieZz g) z = true -> at_coefs (faces_z g b w) z = layer_coef b w (at_face n (ioZz g) (ieZz g) z).
Proof.
  intros H. unfold faces_z, beyond, at_face in *. unfold g in *. dims. fields. change (4 / 2) with 2 in *.
  sides; cbn [andb orb] in H; try discriminate; rewrite ?orb_false_r in H; repeat rewrite set_coefs_ok;
  repeat match goal with |- context[?a <=? ?c] => destruct (Z.leb_spec a c) | |- context[?a <? ?c] => destruct (Z.ltb_spec a c) end; cbn [andb orb]; try reflexivity; try lia.
Qed.
Lemma not_negative_ok v : (0 <= v)%R -> not_negative v = v.
Proof. unfold not_negative. destruct (Rlt_dec v 0); lra. Qed.
Lemma quotient_ok a : 0 <= a -> (0 <= (IZR a + 1 / 2) / IZR n)%R.
Proof. intros H. apply IZR_le in H. assert (0 < IZR n)%R by (apply IZR_lt; lia). apply Rmult_le_pos; [lra|]. left. now apply Rinv_0_lt_compat. Qed.
Lemma centres_x_ok x : beyond (lef b) (rig b) n (pox g b) (pex g b) x = true -> at_coefs (centres_x g b w) x = layer_coef b w (at_centre n (pox g b) (pex g b) x).
Proof.
  intros H. unfold centres_x, beyond, at_centre, pox, pex in *. unfold g in *. dims. fields. change (4 / 2) with 2 in *.
  assert (F : forall a, a < 1 + n -> not_negative ((IZR (2 + n - a) - / 2) / IZR n) = ((IZR (1 + n - a) + 1 / 2) / IZR n)%R).
  { intros a Ha. replace (IZR (2 + n - a) - / 2)%R with (IZR (1 + n - a) + 1 / 2)%R by (rewrite !minus_IZR, !plus_IZR; lra). apply not_negative_ok, quotient_ok. lia. }
  sides; cbn [andb orb] in H; try discriminate; rewrite ?orb_false_r in H; rewrite ?Pl, ?Pr in *; repeat rewrite set_coefs_ok;
  repeat match goal with |- context[?a <=? ?c] => destruct (Z.leb_spec a c) | |- context[?a <? ?c] => destruct (Z.ltb_spec a c) end; cbn [andb orb]; try lia;
  f_equal; try (rewrite F by lia); (apply f_equal2; [apply f_equal2; [f_equal; lia|lra]|reflexivity]).
Qed.
Lemma centres_z_ok z : beyond (top b) (bot b) n (poz g b) (pez g b) z = true -> at_coefs (centres_z g b w) z = layer_coef b w (at_centre n (poz g b) (pez g b) z).
Proof.
  intros H. unfold centres_z, beyond, at_centre, poz, pez in *. unfold g in *. dims. fields. change (4 / 2) with 2 in *.
  assert (F : forall a, a < 1 + n -> not_negative ((IZR (2 - 1 + n + 1 - a) - / 2) / IZR n) = ((IZR (1 + n - a) + 1 / 2) / IZR n)%R).
  { intros a Ha. replace (IZR (2 - 1 + n + 1 - a) - / 2)%R with (IZR (1 + n - a) + 1 / 2)%R by (rewrite !minus_IZR, !plus_IZR, !minus_IZR; lra). apply not_negative_ok, quotient_ok. lia. }
  sides; cbn [andb orb] in H; try discriminate; rewrite ?orb_false_r in H; rewrite ?Pt, ?Pb in *; repeat rewrite set_coefs_ok;
  repeat match goal with |- context[?a <=? ?c] => destruct (Z.leb_spec a c) | |- context[?a <? ?c] => destruct (Z.ltb_spec a c) end; cbn [andb orb]; try lia;
  f_equal; try (rewrite F by lia); (apply f_equal2; [apply f_equal2; [f_equal; lia|lra]|reflexivity]).
Qed.

(** copies into the edges *)
Lemma dims_large : 5 <= n1 /\ 5 <= n2.
Proof. unfold g. dims. fields. lia. Qed.
Lemma ghosts_ok f x z : 0 <= x < n2 -> 0 <= z < n1 -> ghosts g b f (x * n1 + z) = f (inner (lef b =? 2) x * n1 + inner (top b =? 2) z).
Proof.
  intros Hx Hz. pose proof dims_large as [D1 D2]. unfold ghosts. fold g.
  set (f1 := if lef b =? 2 then _ else f).
  assert (E1 : forall x z, 0 <= x < n2 -> 0 <= z < n1 -> f1 (x * n1 + z) = f (inner (lef b =? 2) x * n1 + z)).
  { clear x z Hx Hz. intros x z Hx Hz. unfold f1, inner. destruct (lef b =? 2); [|reflexivity].
    destruct (Z_lt_dec x 2) as [Hl|Hl].
    - replace (Z.max 2 x) with 2 by lia.
      assert (G : (fun f => (f (x * n1 + z), f (2 * n1 + z)))
        (fold_left (fun f iz => let f := upd f (1 * n1 + iz) (f (2 * n1 + iz)) in upd f (0 * n1 + iz) (f (2 * n1 + iz))) (range 0 n1) f) = (f (2 * n1 + z), f (2 * n1 + z))).
      { rewrite (range_view' (fun f : Z -> R => (f (x * n1 + z), f (2 * n1 + z))) _ (fun v => (snd v, snd v)) z 0 n1 f Hz).
        - reflexivity.
        - intros s i Hi Hn. cbn zeta. rewrite !upd_other by (intros E; apply address in E; lia). reflexivity.
        - intros s. cbn zeta. cbn [snd]. rewrite !(upd_other _ (0 * n1 + z) _ (2 * n1 + z)), !(upd_other _ (1 * n1 + z) _ (2 * n1 + z)) by (intros E; apply address in E; lia).
          f_equal. destruct (Z.eq_dec x 0) as [->|]; [now rewrite upd_same|]. replace x with 1 by lia. rewrite upd_other by (intros E; apply address in E; lia). now rewrite upd_same. }
      apply (f_equal fst) in G. exact G.
    - replace (Z.max 2 x) with x by lia. apply (fold_same (fun f : Z -> R => f (x * n1 + z))). intros s i Hi. apply in_range in Hi. cbn zeta. rewrite !upd_other by (intros E; apply address in E; lia). reflexivity. }
  unfold inner at 2. destruct (top b =? 2); [|now apply E1].
  destruct (Z_lt_dec z 2) as [Hl|Hl].
  - replace (Z.max 2 z) with 2 by lia.
    assert (G : (fun f : Z -> R => (f (x * n1 + z), f (x * n1 + 2)))
        (fold_left (fun f ix => let f := upd f (ix * n1 + 1) (f (ix * n1 + 2)) in upd f (ix * n1 + 0) (f (ix * n1 + 2))) (range 0 n2) f1) = (f1 (x * n1 + 2), f1 (x * n1 + 2))).
    { rewrite (range_view' (fun f : Z -> R => (f (x * n1 + z), f (x * n1 + 2))) _ (fun v => (snd v, snd v)) x 0 n2 f1 Hx).
      - reflexivity.
      - intros s i Hi Hn. cbn zeta. rewrite !upd_other by (intros E; apply address in E; lia). reflexivity.
      - intros s. cbn zeta. cbn [snd]. rewrite !(upd_other _ (x * n1 + 0) _ (x * n1 + 2)), !(upd_other _ (x * n1 + 1) _ (x * n1 + 2)) by lia.
        f_equal. destruct (Z.eq_dec z 0) as [->|]; [now rewrite upd_same|]. replace z with 1 by lia. rewrite upd_other by lia. now rewrite upd_same. }
    apply (f_equal fst) in G. etransitivity; [exact G|]. apply E1; lia.
  - replace (Z.max 2 z) with z by lia. rewrite (fold_same (fun f : Z -> R => f (x * n1 + z))); [now apply E1|]. intros s i Hi. apply in_range in Hi. cbn zeta. rewrite !upd_other by (intros E; apply address in E; lia). reflexivity.
Qed.

(** one call at one point: v and the memory ps become *)
Definition after (k : coefs) (mem : bool) (j : Z) (d ro : R) (s : R * R) : R * R :=
  if mem then ((fst s - ro * (cik k j * d + (cb k j * snd s + cc k j * d)))%R, (cb k j * snd s + cc k j * d)%R) else ((fst s - ro * d)%R, snd s).
Lemma vx_hyps : (ioXx g <= ieXx g /\ (lef b =? 2 = true -> 0 <= ioXx g - n) /\ (rig b =? 2 = true -> ieXx g + n <= n2)) /\
  (ioXz g <= ieXz g /\ 0 <= ioXz g /\ ieXz g <= n1 /\ (top b =? 2 = true -> 0 <= ioXz g - n) /\ (bot b =? 2 = true -> ieXz g + n <= n1)).
Proof. unfold g. dims. fields. sides; conjs; intros; try discriminate; lia. Qed.
Lemma vz_hyps : (ioZx g <= ieZx g /\ (lef b =? 2 = true -> 0 <= ioZx g - n) /\ (rig b =? 2 = true -> ieZx g + n <= n2)) /\
  (ioZz g <= ieZz g /\ 0 <= ioZz g /\ ieZz g <= n1 /\ (top b =? 2 = true -> 0 <= ioZz g - n) /\ (bot b =? 2 = true -> ieZz g + n <= n1)).
Proof. unfold g. dims. fields. sides; conjs; intros; try discriminate; lia. Qed.
Notation vx_hit := (hit (ioXx g) (ieXx g) (ioXz g) (ieXz g)).
Notation vz_hit := (hit (ioZx g) (ieZx g) (ioZz g) (ieZz g)).
Definition dpx (p : Z -> R) x z : R := behind (fun x => p (x * n1 + z)) x.
Definition dpz (p : Z -> R) x z : R := behind (fun z => p (x * n1 + z)) z.
Lemma dpx_eq p x z : (c1 * (p (x * n1 + z)%Z - p (x * n1 + z - n1)%Z) + c2 * (p (x * n1 + z + n1)%Z - p (x * n1 + z - 2 * n1)%Z))%R = dpx p x z.
Proof.
  unfold dpx, behind, ahead, c1, c2. replace ((x - 1 + 1) * n1 + z) with (x * n1 + z) by ring. replace ((x - 1) * n1 + z) with (x * n1 + z - n1) by ring.
  replace ((x - 1 + 2) * n1 + z) with (x * n1 + z + n1) by ring. replace ((x - 1 - 1) * n1 + z) with (x * n1 + z - 2 * n1) by ring. lra.
Qed.
Lemma dpz_eq p x z : (c1 * (p (x * n1 + z)%Z - p (x * n1 + z - 1)%Z) + c2 * (p (x * n1 + z + 1)%Z - p (x * n1 + z - 2)%Z))%R = dpz p x z.
Proof.
  unfold dpz, behind, ahead, c1, c2. replace (x * n1 + (z - 1 + 1)) with (x * n1 + z) by ring. replace (x * n1 + (z - 1)) with (x * n1 + z - 1) by ring.
  replace (x * n1 + (z - 1 + 2)) with (x * n1 + z + 1) by ring. replace (x * n1 + (z - 1 - 1)) with (x * n1 + z - 2) by ring. lra.
Qed.
Definition view (x z : Z) (s : (Z -> R) * (Z -> R)) : R * R := (fst s (x * n1 + z), snd s (x * n1 + z)).
Lemma vx_point_other p rox s c x z : 0 <= z < n1 -> 0 <= snd c < n1 -> c <> (x, z) -> view x z (vx_point g b w p rox s c) = view x z s.
Proof.
  destruct c as [x' z']. cbn [snd]. intros Hz Hz' E. unfold vx_point, damped, view.
  assert (A : x * n1 + z <> x' * n1 + z') by (intros E'; apply address in E'; [|assumption|assumption]; destruct E'; subst; now apply E).
  destruct (in_x _ _ _ _); cbn [fst snd]; now rewrite !upd_other by exact A.
Qed.
Lemma vz_point_other p rox s c x z : 0 <= z < n1 -> 0 <= snd c < n1 -> c <> (x, z) -> view x z (vz_point g b w p rox s c) = view x z s.
Proof.
  destruct c as [x' z']. cbn [snd]. intros Hz Hz' E. unfold vz_point, damped, view.
  assert (A : x * n1 + z <> x' * n1 + z') by (intros E'; apply address in E'; [|assumption|assumption]; destruct E'; subst; now apply E).
  destruct (in_z _ _ _ _); cbn [fst snd]; now rewrite !upd_other by exact A.
Qed.
Lemma vx_all p rox s x z : 0 <= z < n1 -> view x z (fold_left (vx_point g b w p rox) (vx_cells g b) s) =
  if vx_hit x z then after (faces_x g b w) (beyond (lef b) (rig b) n (ioXx g) (ieXx g) x) x (dpx p x z) (rox (x * n1 + z)) (view x z s) else view x z s.
Proof.
  intros Hz. destruct vx_hyps as [X1 X2].
  destruct (points_view (view x z) (vx_point g b w p rox) (after (faces_x g b w) (beyond (lef b) (rig b) n (ioXx g) (ieXx g) x) x (dpx p x z) (rox (x * n1 + z))) (x, z) (vx_cells g b)
    (cells_NoDup _ _ _ _ X2)) with (s := s) as [I1 I2].
  - intros s' c Hc E. apply vx_point_other; [exact Hz| |exact E]. destruct c as [x' z']. exact (cells_rows _ _ _ _ X1 X2 _ _ Hc).
  - intros s' Hin. unfold vx_cells in Hin. rewrite (cells_hit _ _ _ _ X1 X2) in Hin. unfold hit in Hin. apply andb_prop in Hin. destruct Hin as [Hin _]. apply andb_prop in Hin. destruct Hin as [Rx _].
    unfold vx_point, damped, view, after, in_x. rewrite (in_cells _ _ _ _ _ _ (proj1 X1) (proj1 (proj2 X1)) (proj2 (proj2 X1)) Rx). fold g. rewrite dpx_eq.
    destruct (beyond _ _ _ _ _ _); cbn [fst snd]; now rewrite !upd_same.
  - destruct (hit _ _ _ _ _ _) eqn:E.
    + apply I1. now apply (cells_hit _ _ _ _ X1 X2).
    + apply I2. unfold vx_cells. rewrite (cells_hit _ _ _ _ X1 X2). congruence.
Qed.
Lemma vz_all p roz s x z : 0 <= z < n1 -> view x z (fold_left (vz_point g b w p roz) (vz_cells g b) s) =
  if vz_hit x z then after (faces_z g b w) (beyond (top b) (bot b) n (ioZz g) (ieZz g) z) z (dpz p x z) (roz (x * n1 + z)) (view x z s) else view x z s.
Proof.
  intros Hz. destruct vz_hyps as [X1 X2].
  destruct (points_view (view x z) (vz_point g b w p roz) (after (faces_z g b w) (beyond (top b) (bot b) n (ioZz g) (ieZz g) z) z (dpz p x z) (roz (x * n1 + z))) (x, z) (vz_cells g b)
    (cells_NoDup _ _ _ _ X2)) with (s := s) as [I1 I2].
  - intros s' c Hc E. apply vz_point_other; [exact Hz| |exact E]. destruct c as [x' z']. exact (cells_rows _ _ _ _ X1 X2 _ _ Hc).
  - intros s' Hin. unfold vz_cells in Hin. rewrite (cells_hit _ _ _ _ X1 X2) in Hin. unfold hit in Hin. apply andb_prop in Hin. destruct Hin as [Hin _]. apply andb_prop in Hin. destruct Hin as [_ Rz].
    unfold vz_point, damped, view, after, in_z. rewrite (in_cells _ _ _ _ _ _ (proj1 X2) (proj1 (proj2 (proj2 (proj2 X2)))) (proj2 (proj2 (proj2 (proj2 X2)))) Rz). fold g. rewrite dpz_eq.
    destruct (beyond _ _ _ _ _ _); cbn [fst snd]; now rewrite !upd_same.
  - destruct (hit _ _ _ _ _ _) eqn:E.
    + apply I1. now apply (cells_hit _ _ _ _ X1 X2).
    + apply I2. unfold vz_cells. rewrite (cells_hit _ _ _ _ X1 X2). congruence.
Qed.
(** a memory variable with the coefficients of the layer *)
Lemma after_layer k j xi ro d t v ps : at_coefs k j = layer_coef b w xi ->
  let mem := memory (p_m w) (p_R w) (p_cp w) L (p_dt w) xi d in ps = mem t ->
  after k true j (d t) ro (v, ps) = ((v - ro * layer_derivative (p_m w) (p_R w) (p_cp w) L (p_dt w) xi d t)%R, mem (S t)).
Proof.
  intros E mem ->. unfold at_coefs in E. rewrite layer_coef_ok in E. apply pair_equal_spec in E. destruct E as [E E3]. apply pair_equal_spec in E. destruct E as [E1 E2].
  unfold after, mem. cbn [fst snd]. rewrite E1, E2, E3. rewrite <- memory_S, memory_used. reflexivity.
Qed.
Section VELOCITIES.
Variables (rox roz : Z -> R) (p vx vz : nat -> Z -> R) (left : (Z -> R) * (Z -> R)).
Notation mem k := (fresh k (memoryP g b w rox roz p vx vz left k)).
Lemma memory_x x z k : 0 <= z < n1 -> vx_hit x z = true -> beyond (lef b) (rig b) n (ioXx g) (ieXx g) x = true ->
  fst (mem k) (x * n1 + z) = memory (p_m w) (p_R w) (p_cp w) L (p_dt w) (at_face n (ioXx g) (ieXx g) x) (fun k => dpx (p k) x z) k.
Proof.
  intros Hz Hh Hb. induction k as [|k IH]; [now rewrite memory_0|]. cbn [fresh memoryP]. unfold layersP. cbn [snd fst].
  pose proof (vx_all (p k) rox (vx k, fst (mem k)) x z Hz) as V. rewrite Hh, Hb in V. unfold view at 2 in V. cbn [fst snd] in V.
  rewrite (after_layer _ _ (at_face n (ioXx g) (ieXx g) x) _ (fun k => dpx (p k) x z)) in V; [|now apply faces_x_ok|exact IH]. apply (f_equal snd) in V. exact V.
Qed.
Lemma memory_z x z k : 0 <= z < n1 -> vz_hit x z = true -> beyond (top b) (bot b) n (ioZz g) (ieZz g) z = true ->
  snd (mem k) (x * n1 + z) = memory (p_m w) (p_R w) (p_cp w) L (p_dt w) (at_face n (ioZz g) (ieZz g) z) (fun k => dpz (p k) x z) k.
Proof.
  intros Hz Hh Hb. induction k as [|k IH]; [now rewrite memory_0|]. cbn [fresh memoryP]. unfold layersP. cbn [snd fst].
  pose proof (vz_all (p k) roz (vz k, snd (mem k)) x z Hz) as V. rewrite Hh, Hb in V. unfold view at 2 in V. cbn [fst snd] in V.
  rewrite (after_layer _ _ (at_face n (ioZz g) (ieZz g) z) _ (fun k => dpz (p k) x z)) in V; [|now apply faces_z_ok|exact IH]. apply (f_equal snd) in V. exact V.
Qed.
End VELOCITIES.

(** pressures *)
Notation bx x := (beyond (lef b) (rig b) n (pox g b) (pex g b) x).
Notation bz z := (beyond (top b) (bot b) n (poz g b) (pez g b) z).
(** the rows that are visited *)
Definition p_rows (z : Z) : bool := ((if top b =? 2 then Z.max 0 (poz g b - n) else poz g b) <=? z) && (z <? (if bot b =? 2 then Z.min n1 (pez g b + n) else pez g b)).
Definition p_hit x z := reach n2 n (pox g b) (pex g b) x && p_rows z && (bx x || bz z).
Lemma p_hyps : (pox g b <= pex g b /\ (lef b =? 2 = true -> 0 <= pox g b - n) /\ (rig b =? 2 = true -> pex g b + n <= n2)) /\
  (poz g b <= pez g b /\ 0 <= poz g b /\ pez g b <= n1 /\ (top b =? 2 = true -> 0 <= poz g b - n) /\ (bot b =? 2 = true -> pez g b + n <= n1)).
Proof. unfold pox, pex, poz, pez, g. dims. fields. sides; conjs; intros; try discriminate; lia. Qed.
Lemma rows_reach z : p_rows z = true -> reach n1 n (poz g b) (pez g b) z = true.
Proof.
  destruct p_hyps as [_ (Z1 & Z2 & Z3 & Zt & Zb)]. unfold p_rows, reach. rewrite !andb_true_iff, !Z.leb_le, !Z.ltb_lt. destruct (top b =? 2), (bot b =? 2); lia.
Qed.
Lemma p_cells_hit x z : In (x, z) (p_cells g b) <-> p_hit x z = true.
Proof.
  destruct p_hyps as [X1 X2]. unfold p_cells. cbv zeta. rewrite (in_columns (fun ix => filter (fun iz => in_x b (pox g b) (pex g b) ix || in_z b (poz g b) (pez g b) iz)
    (range (if top b =? 2 then Z.max (poz g b - n) 0 else poz g b) (if bot b =? 2 then Z.min (pez g b + n) n1 else pez g b)))).
  fold g. rewrite reach_in, filter_In, in_range. unfold p_hit. rewrite !andb_true_iff. unfold in_x, in_z.
  assert (P : ((if top b =? 2 then Z.max (poz g b - n) 0 else poz g b) <= z < (if bot b =? 2 then Z.min (pez g b + n) n1 else pez g b)) <-> p_rows z = true).
  { unfold p_rows. rewrite andb_true_iff, Z.leb_le, Z.ltb_lt. rewrite (Z.max_comm 0), (Z.min_comm n1). reflexivity. }
  rewrite P. split.
  - intros (Rx & Rz & H). rewrite (in_cells _ _ _ _ _ _ (proj1 X1) (proj1 (proj2 X1)) (proj2 (proj2 X1)) Rx), (in_cells _ _ _ _ _ _ (proj1 X2) (proj1 (proj2 (proj2 (proj2 X2)))) (proj2 (proj2 (proj2 (proj2 X2)))) (rows_reach _ Rz)) in H. auto.
  - intros ((Rx & Rz) & H). rewrite (in_cells _ _ _ _ _ _ (proj1 X1) (proj1 (proj2 X1)) (proj2 (proj2 X1)) Rx), (in_cells _ _ _ _ _ _ (proj1 X2) (proj1 (proj2 (proj2 (proj2 X2)))) (proj2 (proj2 (proj2 (proj2 X2)))) (rows_reach _ Rz)). auto.
Qed.
Lemma p_cells_NoDup : NoDup (p_cells g b).
Proof. apply NoDup_columns; [apply range_NoDup|]. intros x. apply NoDup_filter, range_NoDup. Qed.
Lemma p_hit_in x z : p_hit x z = true -> 0 <= x < n2 /\ 0 <= z < n1.
Proof.
  unfold p_hit. rewrite !andb_true_iff. intros [[Rx Rz] _]. apply rows_reach, reach_in, in_range in Rz. apply reach_in, in_range in Rx. lia.
Qed.
Definition dvx' (vx : Z -> R) x z : R := ahead_edge n2 (fun x => vx (x * n1 + z)) x.
Definition dvz' (vz : Z -> R) x z : R := ahead_edge n1 (fun z => vz (x * n1 + z)) z.
Lemma dvx_eq vx x z : 0 <= x < n2 -> dvx g vx x z = dvx' vx x z.
Proof.
  intros Hx. unfold dvx, dvx', ahead_edge, ahead, c1, c2. fold g. destruct ((1 <=? x) && (x <=? n2 - 3)); [lra|]. cbv zeta.
  replace (if x + 1 <? n2 then x + 1 else x) with (Z.min (n2 - 1) (x + 1)) by (destruct (Z.ltb_spec (x + 1) n2); lia).
  replace (if 0 <? x then x - 1 else x) with (Z.max 0 (x - 1)) by (destruct (Z.ltb_spec 0 x); lia). reflexivity.
Qed.
Lemma dvz_eq vz x z : 0 <= z < n1 -> dvz g vz x z = dvz' vz x z.
Proof.
  intros Hx. unfold dvz, dvz', ahead_edge, ahead, c1, c2. fold g. destruct ((1 <=? z) && (z <=? n1 - 3)).
  - replace (x * n1 + (z + 1)) with (x * n1 + z + 1) by ring. replace (x * n1 + (z + 2)) with (x * n1 + z + 2) by ring. replace (x * n1 + (z - 1)) with (x * n1 + z - 1) by ring. lra.
  - cbv zeta. replace (if z + 1 <? n1 then z + 1 else z) with (Z.min (n1 - 1) (z + 1)) by (destruct (Z.ltb_spec (z + 1) n1); lia).
    replace (if 0 <? z then z - 1 else z) with (Z.max 0 (z - 1)) by (destruct (Z.ltb_spec 0 z); lia). reflexivity.
Qed.
(** derivative and memory after a call *)
Definition used (k : coefs) (mem : bool) (j : Z) (d ps : R) : R * R :=
  if mem then ((cik k j * d + (cb k j * ps + cc k j * d))%R, (cb k j * ps + cc k j * d)%R) else (d, ps).
Definition view3 (x z : Z) (s : (Z -> R) * ((Z -> R) * (Z -> R))) : R * (R * R) := (fst s (x * n1 + z), (fst (snd s) (x * n1 + z), snd (snd s) (x * n1 + z))).
Definition after3 (x z : Z) (dx dz l2m : R) (s : R * (R * R)) : R * (R * R) :=
  let ux := used (centres_x g b w) (bx x) x dx (fst (snd s)) in let uz := used (centres_z g b w) (bz z) z dz (snd (snd s)) in
  ((fst s - l2m * (fst ux + fst uz))%R, (snd ux, snd uz)).
Lemma p_all vx vz l2m s x z : 0 <= z < n1 -> view3 x z (fold_left (p_point g b w vx vz l2m) (p_cells g b) s) =
  if p_hit x z then after3 x z (dvx' vx x z) (dvz' vz x z) (l2m (x * n1 + z)) (view3 x z s) else view3 x z s.
Proof.
  intros Hz. destruct p_hyps as [X1 X2].
  destruct (points_view (view3 x z) (p_point g b w vx vz l2m) (after3 x z (dvx' vx x z) (dvz' vz x z) (l2m (x * n1 + z))) (x, z) (p_cells g b) p_cells_NoDup) with (s := s) as [I1 I2].
  - intros s' [x' z'] Hc E. apply p_cells_hit, p_hit_in in Hc. destruct Hc as [_ Hz'].
    assert (A : x * n1 + z <> x' * n1 + z') by (intros E'; apply address in E'; [|assumption|assumption]; destruct E'; subst; now apply E).
    unfold p_point, damped, view3. fold g. destruct (in_x _ _ _ _); destruct (in_z _ _ _ _); cbn [fst snd]; now rewrite !upd_other by exact A.
  - intros s' Hin. apply p_cells_hit in Hin. pose proof (p_hit_in _ _ Hin) as [Hx _]. unfold p_hit in Hin. rewrite !andb_true_iff in Hin. destruct Hin as [[Rx Rz] _].
    unfold p_point, damped, view3, after3, used, in_x, in_z. fold g. rewrite (in_cells _ _ _ _ _ _ (proj1 X1) (proj1 (proj2 X1)) (proj2 (proj2 X1)) Rx), (in_cells _ _ _ _ _ _ (proj1 X2) (proj1 (proj2 (proj2 (proj2 X2)))) (proj2 (proj2 (proj2 (proj2 X2)))) (rows_reach _ Rz)).
    rewrite dvx_eq, dvz_eq by assumption.
    destruct (bx x); destruct (bz z); cbn [fst snd]; now rewrite !upd_same.
  - destruct (p_hit x z) eqn:E.
    + apply I1. now apply p_cells_hit.
    + apply I2. rewrite p_cells_hit. congruence.
Qed.
Lemma used_layer k j xi d t ps : at_coefs k j = layer_coef b w xi ->
  let mem := memory (p_m w) (p_R w) (p_cp w) L (p_dt w) xi d in ps = mem t ->
  used k true j (d t) ps = (layer_derivative (p_m w) (p_R w) (p_cp w) L (p_dt w) xi d t, mem (S t)).
Proof.
  intros E mem ->. unfold at_coefs in E. rewrite layer_coef_ok in E. apply pair_equal_spec in E. destruct E as [E E3]. apply pair_equal_spec in E. destruct E as [E1 E2].
  unfold used, mem. rewrite E1, E2, E3. rewrite <- memory_S, memory_used. reflexivity.
Qed.
Section PRESSURE.
Variables (l2m : Z -> R) (vx vz p : nat -> Z -> R) (left : (Z -> R) * (Z -> R)).
Notation mem k := (fresh k (memoryV g b w l2m vx vz p left k)).
Lemma memory_px x z k : 0 <= z < n1 -> p_hit x z = true -> bx x = true ->
  fst (mem k) (x * n1 + z) = memory (p_m w) (p_R w) (p_cp w) L (p_dt w) (at_centre n (pox g b) (pex g b) x) (fun k => dvx' (vx k) x z) k.
Proof.
  intros Hz Hh Hb. induction k as [|k IH]; [now rewrite memory_0|]. cbn [fresh memoryV]. unfold layersV. cbn [snd fst].
  pose proof (p_all (vx k) (vz k) l2m (p k, mem k) x z Hz) as V. rewrite Hh in V. apply (f_equal snd), (f_equal fst) in V. etransitivity; [exact V|].
  unfold after3. rewrite Hb. cbn [fst snd view3]. now rewrite (used_layer _ _ (at_centre n (pox g b) (pex g b) x) (fun k => dvx' (vx k) x z)); [|apply centres_x_ok|exact IH].
Qed.
Lemma memory_pz x z k : 0 <= z < n1 -> p_hit x z = true -> bz z = true ->
  snd (mem k) (x * n1 + z) = memory (p_m w) (p_R w) (p_cp w) L (p_dt w) (at_centre n (poz g b) (pez g b) z) (fun k => dvz' (vz k) x z) k.
Proof.
  intros Hz Hh Hb. induction k as [|k IH]; [now rewrite memory_0|]. cbn [fresh memoryV]. unfold layersV. cbn [snd fst].
  pose proof (p_all (vx k) (vz k) l2m (p k, mem k) x z Hz) as V. rewrite Hh in V. apply (f_equal snd), (f_equal snd) in V. etransitivity; [exact V|].
  unfold after3. rewrite Hb. cbn [fst snd view3]. now rewrite (used_layer _ _ (at_centre n (poz g b) (pez g b) z) (fun k => dvz' (vz k) x z)); [|apply centres_z_ok|exact IH].
Qed.
End PRESSURE.
End GRID.
