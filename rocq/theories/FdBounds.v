(** Every access of the finite-difference kernels is inside the arrays. *)
From Coq Require Import ZArith List Bool QArith Lia.
From Verif Require Import ListAux FdMachine FdKernels FdProofs FdSpec FdReads.
Import ListNotations.
Local Open Scope Z_scope.

(** a predicate for all assignments of a program *)
Definition all_items (P : action -> Prop) (prog : list item) : Prop :=
  Forall (fun i => match i with For l | All l => Forall P l | Barrier => True end) prog.
Lemma all_items_app P a b : all_items P a -> all_items P b -> all_items P (a ++ b).
Proof. intros. apply Forall_app; now split. Qed.
Lemma all_items_when P c l : (c = true -> all_items P l) -> all_items P (when c l).
Proof. destruct c; cbn; [auto|constructor]. Qed.
Lemma all_items_for P l : Forall P l -> all_items P [For l].
Proof. intros. now repeat constructor. Qed.
Lemma all_items_barrier P : all_items P [Barrier].
Proof. now repeat constructor. Qed.
Lemma all_items_omp P l : Forall P l -> all_items P (omp_for l).
Proof. intros. now repeat constructor. Qed.
Lemma all_items_cons P l r : Forall P l -> all_items P r -> all_items P (For l :: r).
Proof. intros. now constructor. Qed.
Lemma all_items_work P prog : all_items P prog -> forall threads a, In a (flat_map (work threads) prog) -> P a.
Proof.
  intros H threads a Ha. apply in_flat_map in Ha as (i & Hi & Ha). unfold all_items in H. rewrite Forall_forall in H. specialize (H i Hi).
  destruct i; cbn [work] in Ha; [rewrite Forall_forall in H; auto| |destruct Ha].
  apply in_concat in Ha as (l' & Hl & Ha). apply repeat_spec in Hl. subst. rewrite Forall_forall in H. auto.
Qed.
Lemma Forall_loop (P : action -> Prop) x0 x1 z0 z1 body : (forall ix iz, x0 <= ix < x1 -> z0 <= iz < z1 -> Forall P (body ix iz)) -> Forall P (loop x0 x1 z0 z1 body).
Proof. intros H. apply Forall_forall. intros a Ha. apply in_loop in Ha as (ix & iz & Hx & Hz & Ha). specialize (H ix iz Hx Hz). rewrite Forall_forall in H. auto. Qed.
Lemma Forall_flat_map_range (P : action -> Prop) x0 x1 body : (forall ix, x0 <= ix < x1 -> Forall P (body ix)) -> Forall P (flat_map body (range x0 x1)).
Proof. intros H. apply Forall_forall. intros a Ha. apply in_flat_map in Ha as (ix & Hx & Ha). apply in_range in Hx. specialize (H ix Hx). rewrite Forall_forall in H. auto. Qed.
Lemma Forall_map_range (P : action -> Prop) x0 x1 body : (forall ix, x0 <= ix < x1 -> P (body ix)) -> Forall P (map body (range x0 x1)).
Proof. intros H. apply Forall_forall. intros a Ha. apply in_map_iff in Ha as (ix & <- & Hx). apply in_range in Hx. auto. Qed.

Definition pad (b : bnd) (side : Z) : Z := if tapered side then npml b else 0.

Section Bounds.
Context (nx nz h : Z) (b : bnd).
Context (Hnx : 0 < nx) (Hnz : 0 < nz) (Hh : 2 <= h) (Hn : 0 < npml b).
Let g := getgrid nx nz (2 * h) b.
Let n := npml b.
Let t := pad b (top b). Let u := pad b (bot b). Let l := pad b (lef b). Let r := pad b (rig b).

Lemma g_eq : g = {| FdKernels.nx := nx; FdKernels.nz := nz; iorder := 2 * h; naz := nz + 2 * h + t + u; nax := nx + 2 * h + l + r;
     ioXx := h + l; ioXz := h - 1 + t; ieXx := nx + h + l; ieXz := nz + (h - 1) + t;
     ioZx := h - 1 + l; ioZz := h + t; ieZx := nx + (h - 1) + l; ieZz := nz + h + t;
     ioPx := h - 1; ioPz := h - 1; iePx := nx + (h - 1) + l + r; iePz := nz + (h - 1) + t + u;
     ioTx := h; ioTz := h; ieTx := nx + h + l + r; ieTz := nz + h + t + u |}.
Proof. unfold g, getgrid. replace (2 * h / 2) with h by (rewrite Z.mul_comm, Z.div_mul; lia). reflexivity. Qed.

Lemma pads : (0 <= t <= n /\ 0 <= u <= n /\ 0 <= l <= n /\ 0 <= r <= n) /\
  (tapered (top b) = true -> t = n) /\ (tapered (bot b) = true -> u = n) /\ (tapered (lef b) = true -> l = n) /\ (tapered (rig b) = true -> r = n).
Proof.
  subst t u l r n. unfold pad.
  destruct (tapered (top b)), (tapered (bot b)), (tapered (lef b)), (tapered (rig b)); conjs; try lia; try reflexivity; discriminate.
Qed.
Lemma ibnd_eq : ibnd g = h - 1.
Proof. unfold ibnd. rewrite g_eq. cbn [iorder]. rewrite Z.mul_comm, Z.div_mul; lia. Qed.

Context (surface : Z -> Z) (src_type : Z) (sources : list (Z * Z)) (dxi : Q).
Definition ok (a : action) : Prop := forall x, x = tgt a \/ In x (reads (rhs a)) -> inside g b (length sources) x.

(** unfold the grid and let lia see the paddings *)
Ltac facts := pose proof pads as ((? & ? & ? & ?) & Pt & Pu & Pl & Pr); fold n in Hn;
  repeat match goal with H : tapered (top b) = true |- _ => rewrite (Pt H) in *; clear H | H : tapered (bot b) = true |- _ => rewrite (Pu H) in *; clear H
   | H : tapered (lef b) = true |- _ => rewrite (Pl H) in *; clear H | H : tapered (rig b) = true |- _ => rewrite (Pr H) in *; clear H end; clear Pt Pu Pl Pr.
Ltac unf := rewrite g_eq in *; cbn [FdKernels.nx FdKernels.nz iorder naz nax ioXx ioXz ieXx ieXz ioZx ioZz ieZx ieZz ioPx ioPz iePx iePz ioTx ioTz ieTx ieTz] in *.

Lemma ok_minus f e ix iz : inside g b (length sources) (f, ix, iz) -> (forall x, In x (reads e) -> inside g b (length sources) x) -> ok (minus_eq f ix iz e).
Proof. intros H R x. unfold minus_eq. cbn [tgt rhs reads]. rewrite in_app_iff. cbn [In]. intros [->|[[<-|[]]|Hx]]; auto. Qed.
Lemma ok_taper_vx (elastic : bool) tap ix iz : 2 <= ix < nax g - 1 -> 1 <= iz < naz g - 2 ->
  (forall x, In x (reads (tap ix iz)) -> inside g b (length sources) x) -> Forall ok (taper_vx elastic tap ix iz).
Proof.
  intros Hx Hz R. constructor; [|constructor]. intros x. cbn [tgt rhs reads]. rewrite !in_app_iff. cbn [In].
  assert (S : inside g b (length sources) (VX, ix, iz)) by (cbn [inside]; lia).
  intros [->|[[[<-|[]]|Hr]|Hr]]; auto.
  unfold vx_bnd in Hr. destruct elastic.
  - apply reads_vx_el in Hr; [|exact lit_coef4]. change (Z.of_nat (length coef4)) with 2 in Hr.
    destruct Hr as [->|[(d & Hd & ->)|(d & Hd & ->)]]; cbn [inside]; lia.
  - apply reads_vx_ac in Hr; [|exact lit_coef4]. change (Z.of_nat (length coef4)) with 2 in Hr.
    destruct Hr as [->|(d & Hd & ->)]; cbn [inside]; lia.
Qed.
Lemma ok_taper_vz (elastic : bool) tap ix iz : 1 <= ix < nax g - 2 -> 2 <= iz < naz g - 1 ->
  (forall x, In x (reads (tap ix iz)) -> inside g b (length sources) x) -> Forall ok (taper_vz elastic tap ix iz).
Proof.
  intros Hx Hz R. constructor; [|constructor]. intros x. cbn [tgt rhs reads]. rewrite !in_app_iff. cbn [In].
  assert (S : inside g b (length sources) (VZ, ix, iz)) by (cbn [inside]; lia).
  intros [->|[[[<-|[]]|Hr]|Hr]]; auto.
  unfold vz_bnd in Hr. destruct elastic.
  - apply reads_vz_el in Hr; [|exact lit_coef4]. change (Z.of_nat (length coef4)) with 2 in Hr.
    destruct Hr as [->|[(d & Hd & ->)|(d & Hd & ->)]]; cbn [inside]; lia.
  - apply reads_vz_ac in Hr; [|exact lit_coef4]. change (Z.of_nat (length coef4)) with 2 in Hr.
    destruct Hr as [->|(d & Hd & ->)]; cbn [inside]; lia.
Qed.

Ltac taper := intros; apply all_items_omp; cbv zeta; apply Forall_loop; intros; (apply ok_taper_vx || apply ok_taper_vz);
  [| |intros x [<-|[]]; cbn [inside]]; unf; facts; lia.

Lemma bounds_taper_top elastic : tapered (top b) = true -> all_items ok (taper_top g b elastic).
Proof.
  intros T. unfold taper_top. cbv zeta. fold n.
  repeat (apply all_items_app || (apply all_items_when; intros)); taper.
Qed.
Lemma bounds_taper_bot elastic : tapered (bot b) = true -> all_items ok (taper_bot g b elastic).
Proof.
  intros T. unfold taper_bot. cbv zeta. fold n.
  repeat (apply all_items_app || (apply all_items_when; intros)); taper.
Qed.
Lemma bounds_taper_lef elastic : tapered (lef b) = true -> all_items ok (taper_lef g b elastic).
Proof.
  intros T. unfold taper_lef. cbv zeta. fold n. repeat (apply all_items_app || (apply all_items_when; intros)); taper.
Qed.
Lemma bounds_taper_rig elastic : tapered (rig b) = true -> all_items ok (taper_rig g b elastic).
Proof.
  intros T. unfold taper_rig. cbv zeta. fold n. repeat (apply all_items_app || (apply all_items_when; intros)); taper.
Qed.

Lemma ok_copy f ix iz f' ix' iz' e : inside g b (length sources) (f, ix, iz) -> inside g b (length sources) (f', ix', iz') ->
  e = Rd f' ix' iz' \/ e = Neg (Rd f' ix' iz') -> ok (mk_action (f, ix, iz) e).
Proof. intros A B [->| ->] x; cbn [tgt rhs reads In]; intros [->|[<-|[]]]; auto. Qed.

Lemma bounds_free_top : (forall ix, ioPx g <= ix < iePx g -> 1 <= surface ix /\ surface ix + 2 < naz g) -> Forall ok (free_top g surface).
Proof.
  intros S. apply Forall_flat_map_range. intros ix Hx. specialize (S ix Hx). unf; facts.
  repeat constructor; (eapply ok_copy; [..|left; reflexivity]); rewrite g_eq; cbn [inside nax naz]; lia.
Qed.
Ltac rigid := apply Forall_flat_map_range; intros i Hi; apply Forall_cons; [|apply Forall_map_range; intros ib Hib];
  (eapply ok_copy; [..|right; reflexivity]); unf; facts; cbn [inside nax naz]; lia.
Lemma bounds_rigid_top : Forall ok (rigid_top g).
Proof. unfold rigid_top. rewrite ibnd_eq. rigid. Qed.
Lemma bounds_rigid_rig : h - 1 <= nx -> Forall ok (rigid_rig g).
Proof. intros. unfold rigid_rig. rewrite ibnd_eq. rigid. Qed.
Lemma bounds_rigid_bot : h - 1 <= nz -> Forall ok (rigid_bot g).
Proof. intros. unfold rigid_bot. rewrite ibnd_eq. rigid. Qed.
Lemma bounds_rigid_lef : h = 2 -> Forall ok (rigid_lef g).
Proof. intros. unfold rigid_lef. rewrite ibnd_eq. rigid. Qed.

Context (elastic : bool).
Context (Hs : top b = 1 -> elastic = false -> forall ix, ioPx g <= ix < iePx g -> 1 <= surface ix /\ surface ix + 2 < naz g).
Context (Hrig : rig b = 3 -> h - 1 <= nx) (Hbot : bot b = 3 -> h - 1 <= nz) (Hlef : lef b = 3 -> h = 2).

Lemma bounds_P : all_items ok (boundariesP g b elastic surface).
Proof.
  unfold boundariesP. repeat apply all_items_app; apply all_items_when; intros E;
    try (apply all_items_for);
    [apply andb_true_iff in E as [E1 E2]; apply Z.eqb_eq in E2; apply bounds_free_top, Hs; [exact E2|now destruct elastic]
    |apply bounds_rigid_top|apply Z.eqb_eq in E; apply bounds_rigid_rig; auto|apply Z.eqb_eq in E; apply bounds_rigid_bot; auto
    |apply Z.eqb_eq in E; apply bounds_rigid_lef; auto|now apply bounds_taper_top|now apply bounds_taper_bot|now apply bounds_taper_lef|now apply bounds_taper_rig].
Qed.
Lemma bounds_V : all_items ok (boundariesV g b elastic surface).
Proof.
  unfold boundariesV. apply all_items_app; [|apply all_items_barrier]. apply all_items_when. intros El.
  repeat apply all_items_app; apply all_items_when; intros E; apply all_items_for, Forall_map_range; intros i Hi;
    apply Z.eqb_eq in E; intros x [->|[]]; cbn [tgt].
  - specialize (Hs E ltac:(now destruct elastic) i Hi). unf; facts. cbn [inside nax naz]. lia.
  - unf; facts. cbn [inside nax naz]. lia.
  - unf; facts. cbn [inside nax naz]. lia.
  - unf; facts. cbn [inside nax naz]. lia.
Qed.

Context (Hsrc : Forall (source_ok nz) sources).
Lemma bounds_S : all_items ok (applySource g b elastic src_type sources dxi).
Proof.
  apply all_items_omp, Forall_forall. intros a Ha. apply in_flat_map in Ha as ([k s] & Hks & Ha).
  assert (Hk : (k < length sources)%nat) by (apply in_combine_l, in_seq in Hks; lia).
  assert (Hz : source_ok nz s) by (apply in_combine_r in Hks; rewrite Forall_forall in Hsrc; auto).
  unfold source_at in Ha. cbv zeta in Ha. destruct ((fst s <? 0) || (FdKernels.nx g <? fst s)) eqn:E; [destruct Ha|].
  apply orb_false_iff in E as [E1 E2]. apply Z.ltb_ge in E1, E2.
  assert (B : 0 <= fst s + fst (src_offset g b src_type) < nax g /\ 0 <= snd s + snd (src_offset g b src_type) < naz g).
  { unfold src_offset. unfold source_ok in Hz. fold (pad b (lef b)) (pad b (top b)) l t.
    unf. facts. destruct (src_type =? 6), (src_type =? 7); cbn [fst snd]; lia. }
  remember (fst s + fst (src_offset g b src_type)) as ix. remember (snd s + snd (src_offset g b src_type)) as iz.
  intros x Hx.
  assert (C : (exists f, In f [VX; VZ; TZZ; TXX; ROX; ROZ; L2M] /\ x = (f, ix, iz)) \/ x = (SRC, Z.of_nat k, 0)).
  { destruct (src_type =? 6); [|destruct (src_type =? 7); [|destruct (src_type =? 1); [destruct elastic|]]]; cbn in Ha;
      repeat (destruct Ha as [<-|Ha]); try contradiction; cbn in Hx; intuition (subst; eauto 20 using in_eq, in_cons). }
  destruct C as [(f & Hf & ->)| ->]; [|cbn [inside]; lia].
  cbn [In] in Hf. intuition (subst; cbn [inside]; lia).
Qed.

(** the main loops *)
Context (cs : list expr) (Lc : literals cs) (Hc : Z.of_nat (length cs) = h).
Ltac main R := intros; apply Forall_loop; intros ix iz Hx Hz; cbv beta; apply Forall_cons; [|apply Forall_nil]; apply ok_minus;
  [unf; facts; cbn [inside nax naz]; lia|]; intros x Hr; apply R in Hr; [rewrite Hc in Hr|exact Lc];
  decompose [or ex and] Hr; clear Hr; subst x; unf; facts; cbn [inside nax naz]; lia.
Lemma bounds_vx_ac : Forall ok (vx_loop g (vx_ac cs)).  Proof. main reads_vx_ac. Qed.
Lemma bounds_vz_ac : Forall ok (vz_loop g (vz_ac cs)).  Proof. main reads_vz_ac. Qed.
Lemma bounds_p_ac : Forall ok (p_loop g (p_ac cs)).  Proof. main reads_p_ac. Qed.
Lemma bounds_vx_el : Forall ok (vx_loop g (vx_el cs)).  Proof. main reads_vx_el. Qed.
Lemma bounds_vz_el : Forall ok (vz_loop g (vz_el cs)).  Proof. main reads_vz_el. Qed.
Lemma bounds_txz_el : Forall ok (loop (ioTx g) (ieTx g) (ioTz g) (ieTz g) (fun ix iz => [minus_eq TXZ ix iz (txz_el cs ix iz)])).
Proof. main reads_txz_el. Qed.
Lemma bounds_stress lam : In lam [L2M; LAM] -> Forall ok (stress_loop g cs lam).
Proof.
  intros Hlam. apply Forall_loop; intros ix iz Hx Hz.
  assert (I : forall f, In f [L2M; LAM; TXX; TZZ] -> inside g b (length sources) (f, ix, iz)).
  { intros f Hf. cbn in Hf. unf. facts. intuition (subst; cbn [inside nax naz]; lia). }
  assert (X : forall d, - h < d <= h -> inside g b (length sources) (VX, ix + d, iz)) by (intros; unf; facts; cbn [inside nax naz]; lia).
  assert (Zz : forall d, - h < d <= h -> inside g b (length sources) (VZ, ix, iz + d)) by (intros; unf; facts; cbn [inside nax naz]; lia).
  repeat constructor; (apply ok_minus; [apply I; cbn; tauto|]); intros x Hr;
    (apply reads_txx_el in Hr || apply reads_tzz_el in Hr); try exact Lc; rewrite Hc in Hr;
    destruct Hr as [->|[->|[(d & Hd & ->)|(d & Hd & ->)]]]; auto; apply I; cbn in *; intuition.
Qed.
Ltac main_sh R := intros; apply Forall_loop; intros ix iz Hx Hz; cbv beta; apply Forall_cons; [|apply Forall_nil]; apply ok_minus;
  [unf; facts; cbn [inside nax naz]; lia|]; intros x Hr; apply R in Hr;
  decompose [or ex and] Hr; clear Hr; subst x; unf; facts; cbn [inside nax naz]; lia.
Lemma bounds_vx_sh : Forall ok (vx_loop g vx_sh).  Proof. main_sh reads_vx_sh. Qed.
Lemma bounds_vz_sh : Forall ok (vz_loop g vz_sh).  Proof. main_sh reads_vz_sh. Qed.
Lemma bounds_p_sh : Forall ok (p_loop g p_sh).  Proof. main_sh reads_p_sh. Qed.
End Bounds.
