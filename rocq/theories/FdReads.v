(** What the statements of the finite-difference kernels read. *)
From Coq Require Import ZArith List Bool QArith Lia.
From Verif Require Import ListAux FdMachine FdKernels FdProofs FdSpec.
Import ListNotations.
Local Open Scope Z_scope.

Definition literals (cs : list expr) : Prop := Forall (fun c => reads c = []) cs.

Lemma reads_sum l x : In x (reads (sum l)) -> exists e, In e l /\ In x (reads e).
Proof.
  destruct l as [|e r]; [intros []|]. cbn [sum]. revert e. induction r as [|a r IH]; intros e H; cbn [fold_left] in H.
  - exists e. split; [now left|exact H].
  - apply IH in H as (e' & [<-|Hi] & Hr).
    + cbn [reads] in Hr. apply in_app_or in Hr as [Hr|Hr]; [exists e|exists a]; (split; [cbn; tauto|exact Hr]).
    + exists e'. split; [cbn; tauto|exact Hr].
Qed.
Lemma reads_diff_aux d cs x n : literals cs -> In x (flat_map reads (map (fun '(k, c) => Mul c (d (Z.of_nat k))) (combine (seq n (length cs)) cs))) ->
  exists k, Z.of_nat n <= k < Z.of_nat n + Z.of_nat (length cs) /\ In x (reads (d k)).
Proof.
  intros L. revert n. induction L as [|c cs Hc L IH]; intros n H; [destruct H|]. cbn [length seq combine map flat_map reads] in H.
  rewrite Hc in H. cbn [app] in H. apply in_app_or in H as [H|H].
  - exists (Z.of_nat n). split; [cbn [length]; lia|exact H].
  - apply IH in H as (k & Hk & H). exists k. split; [cbn [length]; lia|exact H].
Qed.
Lemma reads_diff d cs x : literals cs -> (exists e, In e (diff d cs) /\ In x (reads e)) ->
  exists k, 0 <= k < Z.of_nat (length cs) /\ In x (reads (d k)).
Proof. intros L H. apply in_flat_map in H. apply reads_diff_aux in H; auto. Qed.
Lemma reads_diff2_aux d e cs x n : (forall k, exists a b, e k = Sub a b) -> literals cs ->
  In x (flat_map reads (map (fun '(k, c) => Mul c (match e (Z.of_nat k) with Sub a b => Sub (Add (d (Z.of_nat k)) a) b | y => Add (d (Z.of_nat k)) y end)) (combine (seq n (length cs)) cs))) ->
  exists k, Z.of_nat n <= k < Z.of_nat n + Z.of_nat (length cs) /\ (In x (reads (d k)) \/ In x (reads (e k))).
Proof.
  intros E L. revert n. induction L as [|c cs Hc L IH]; intros n H; [destruct H|]. cbn [length seq combine map flat_map] in H.
  apply in_app_or in H as [H|H].
  - exists (Z.of_nat n). split; [cbn [length]; lia|]. cbn [reads] in H. rewrite Hc in H. cbn [app] in H.
    destruct (E (Z.of_nat n)) as (a & b & Ee). rewrite Ee in *. cbn [reads] in *. rewrite !in_app_iff in *. tauto.
  - apply IH in H as (k & Hk & H). exists k. split; [cbn [length]; lia|exact H].
Qed.
Lemma reads_diff2 d e cs x : (forall k, exists a b, e k = Sub a b) -> literals cs -> (exists y, In y (diff2 d e cs) /\ In x (reads y)) ->
  exists k, 0 <= k < Z.of_nat (length cs) /\ (In x (reads (d k)) \/ In x (reads (e k))).
Proof. intros E L H. apply in_flat_map in H. apply reads_diff2_aux in H; auto. Qed.

Lemma lit_coef4 : literals coef4. Proof. repeat constructor. Qed.
Lemma lit_coef4opt : literals coef4opt. Proof. repeat constructor. Qed.
Lemma lit_coef6 : literals coef6. Proof. repeat constructor. Qed.
Lemma lit_coef16 : literals coef16. Proof. repeat constructor. Qed.

Section Reads.
Context (cs : list expr) (L : literals cs).
Let h := Z.of_nat (length cs).
Implicit Types (ix iz : Z) (x : loc).

Ltac own H := cbn [reads] in H; apply in_app_or in H as [H|H]; [left; destruct H as [<-|[]]; reflexivity|].
Ltac go1 H k Hk := apply reads_sum, reads_diff in H as (k & Hk & H); [|exact L];
  unfold back_x, back_z, fwd_x, fwd_z in H; cbn [reads app In] in H.
Ltac go2 H k Hk := apply reads_sum, reads_diff2 in H as (k & Hk & H); [|intros; do 2 eexists; reflexivity|exact L];
  unfold back_x, back_z, fwd_x, fwd_z in H; cbn [reads app In] in H.

Lemma reads_vx_ac ix iz x : In x (reads (vx_ac cs ix iz)) -> x = (ROX, ix, iz) \/ exists d, - h <= d < h /\ x = (TZZ, ix + d, iz).
Proof.
  unfold vx_ac. intros H. own H. go1 H k Hk.
  right. subst h. destruct H as [<-|[<-|[]]]; [exists k|exists (- k - 1)]; (split; [lia|do 2 f_equal; lia]).
Qed.
Lemma reads_vz_ac ix iz x : In x (reads (vz_ac cs ix iz)) -> x = (ROZ, ix, iz) \/ exists d, - h <= d < h /\ x = (TZZ, ix, iz + d).
Proof.
  unfold vz_ac. intros H. own H. go1 H k Hk.
  right. subst h. destruct H as [<-|[<-|[]]]; [exists k|exists (- k - 1)]; (split; [lia|f_equal; lia]).
Qed.
Lemma reads_p_ac ix iz x : In x (reads (p_ac cs ix iz)) -> x = (L2M, ix, iz) \/ (exists d, - h < d <= h /\ x = (VX, ix + d, iz))
  \/ exists d, - h < d <= h /\ x = (VZ, ix, iz + d).
Proof.
  unfold p_ac. intros H. cbn [reads] in H. apply in_app_or in H as [H|H]; [cbn in H; intuition|].
  right. apply reads_sum in H as (e & He & Hx). apply in_app_or in He as [He|He].
  - left. destruct (reads_diff _ _ x L (ex_intro _ e (conj He Hx))) as (k & Hk & H). cbn [reads app In fwd_x] in H.
    subst h. destruct H as [<-|[<-|[]]]; [exists (k + 1)|exists (- k)]; (split; [lia|do 2 f_equal; lia]).
  - right. destruct (reads_diff _ _ x L (ex_intro _ e (conj He Hx))) as (k & Hk & H). cbn [reads app In fwd_z] in H.
    subst h. destruct H as [<-|[<-|[]]]; [exists (k + 1)|exists (- k)]; (split; [lia|f_equal; lia]).
Qed.
Lemma reads_vx_el ix iz x : In x (reads (vx_el cs ix iz)) -> x = (ROX, ix, iz) \/ (exists d, - h <= d < h /\ x = (TXX, ix + d, iz))
  \/ exists d, - h < d <= h /\ x = (TXZ, ix, iz + d).
Proof.
  unfold vx_el. intros H. own H. go2 H k Hk. subst h.
  right. destruct H as [[<-|[<-|[]]]|[<-|[<-|[]]]];
    [left; exists k|left; exists (- k - 1)|right; exists (k + 1)|right; exists (- k)]; (split; [lia|first [f_equal; lia | do 2 f_equal; lia]]).
Qed.
Lemma reads_vz_el ix iz x : In x (reads (vz_el cs ix iz)) -> x = (ROZ, ix, iz) \/ (exists d, - h <= d < h /\ x = (TZZ, ix, iz + d))
  \/ exists d, - h < d <= h /\ x = (TXZ, ix + d, iz).
Proof.
  unfold vz_el. intros H. own H. go2 H k Hk. subst h.
  right. destruct H as [[<-|[<-|[]]]|[<-|[<-|[]]]];
    [left; exists k|left; exists (- k - 1)|right; exists (k + 1)|right; exists (- k)]; (split; [lia|first [f_equal; lia | do 2 f_equal; lia]]).
Qed.
Lemma reads_dvx ix iz x : In x (reads (dvx cs ix iz)) -> exists d, - h < d <= h /\ x = (VX, ix + d, iz).
Proof.
  unfold dvx. intros H. go1 H k Hk. subst h. destruct H as [<-|[<-|[]]]; [exists (k + 1)|exists (- k)]; (split; [lia|first [f_equal; lia | do 2 f_equal; lia]]).
Qed.
Lemma reads_dvz ix iz x : In x (reads (dvz cs ix iz)) -> exists d, - h < d <= h /\ x = (VZ, ix, iz + d).
Proof.
  unfold dvz. intros H. go1 H k Hk. subst h. destruct H as [<-|[<-|[]]]; [exists (k + 1)|exists (- k)]; (split; [lia|first [f_equal; lia | do 2 f_equal; lia]]).
Qed.
Lemma reads_txx_el lam ix iz x : In x (reads (txx_el cs lam ix iz)) -> x = (L2M, ix, iz) \/ x = (lam, ix, iz) \/
  (exists d, - h < d <= h /\ x = (VX, ix + d, iz)) \/ exists d, - h < d <= h /\ x = (VZ, ix, iz + d).
Proof.
  unfold txx_el. cbn [reads]. rewrite !in_app_iff. cbn [In].
  intros [[[<-|[]]|H]|[[<-|[]]|H]]; auto; [apply reads_dvx in H|apply reads_dvz in H]; auto.
Qed.
Lemma reads_tzz_el lam ix iz x : In x (reads (tzz_el cs lam ix iz)) -> x = (L2M, ix, iz) \/ x = (lam, ix, iz) \/
  (exists d, - h < d <= h /\ x = (VX, ix + d, iz)) \/ exists d, - h < d <= h /\ x = (VZ, ix, iz + d).
Proof.
  unfold tzz_el. cbn [reads]. rewrite !in_app_iff. cbn [In].
  intros [[[<-|[]]|H]|[[<-|[]]|H]]; auto; [apply reads_dvz in H|apply reads_dvx in H]; auto.
Qed.
Lemma reads_txz_el ix iz x : In x (reads (txz_el cs ix iz)) -> x = (MUL, ix, iz) \/ (exists d, - h <= d < h /\ x = (VX, ix, iz + d))
  \/ exists d, - h <= d < h /\ x = (VZ, ix + d, iz).
Proof.
  unfold txz_el. intros H. own H. go2 H k Hk. subst h.
  right. destruct H as [[<-|[<-|[]]]|[<-|[<-|[]]]];
    [left; exists k|left; exists (- k - 1)|right; exists k|right; exists (- k - 1)]; (split; [lia|first [f_equal; lia | do 2 f_equal; lia]]).
Qed.
Lemma reads_back_x f ix iz x : In x (reads (sum (diff (back_x f ix iz) cs))) -> exists d, - h <= d < h /\ x = (f, ix + d, iz).
Proof.
  intros H. go1 H k Hk. subst h. destruct H as [<-|[<-|[]]]; [exists k|exists (- k - 1)]; (split; [lia|do 2 f_equal; lia]).
Qed.
Lemma reads_back_z f ix iz x : In x (reads (sum (diff (back_z f ix iz) cs))) -> exists d, - h <= d < h /\ x = (f, ix, iz + d).
Proof.
  intros H. go1 H k Hk. subst h. destruct H as [<-|[<-|[]]]; [exists k|exists (- k - 1)]; (split; [lia|f_equal; lia]).
Qed.
End Reads.
Lemma reads_vx_sh ix iz x : In x (reads (vx_sh ix iz)) -> x = (L2M, ix, iz) \/ exists d, - 2 <= d < 2 /\ x = (TZZ, ix + d, iz).
Proof.
  unfold vx_sh. cbn [reads]. rewrite in_app_iff. intros [[<-|[]]|H]; [now left|].
  right. exact (reads_back_x coef4 lit_coef4 _ _ _ _ H).
Qed.
Lemma reads_vz_sh ix iz x : In x (reads (vz_sh ix iz)) -> x = (L2M, ix, iz) \/ exists d, - 2 <= d < 2 /\ x = (TZZ, ix, iz + d).
Proof.
  unfold vz_sh. cbn [reads]. rewrite in_app_iff. intros [[<-|[]]|H]; [now left|].
  right. exact (reads_back_z coef4 lit_coef4 _ _ _ _ H).
Qed.
Lemma reads_p_sh ix iz x : In x (reads (p_sh ix iz)) -> x = (ROX, ix, iz) \/ (exists d, - 2 < d <= 2 /\ x = (VX, ix + d, iz))
  \/ exists d, - 2 < d <= 2 /\ x = (VZ, ix, iz + d).
Proof.
  unfold p_sh. cbn [reads]. rewrite in_app_iff. intros [[<-|[]]|H]; [now left|].
  right. apply reads_sum in H as (e & He & Hx). apply in_app_or in He as [He|He].
  - left. destruct (reads_diff _ _ x lit_coef4 (ex_intro _ e (conj He Hx))) as (k & Hk & H). cbn [reads app In fwd_x] in H.
    change (Z.of_nat (length coef4)) with 2 in Hk. destruct H as [<-|[<-|[]]]; [exists (k + 1)|exists (- k)]; (split; [lia|do 2 f_equal; lia]).
  - right. destruct (reads_diff _ _ x lit_coef4 (ex_intro _ e (conj He Hx))) as (k & Hk & H). cbn [reads app In fwd_z] in H.
    change (Z.of_nat (length coef4)) with 2 in Hk. destruct H as [<-|[<-|[]]]; [exists (k + 1)|exists (- k)]; (split; [lia|f_equal; lia]).
Qed.

