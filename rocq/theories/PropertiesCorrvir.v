(** Properties of the virtual sources of corrvir (C92: selection of sources, C93: virtual traces). *)
From Coq Require Import ZArith Reals List Bool Lia Lra.
From Verif Require Import ListAux FdKernels FdProofs FdOutputProofs Marchenko MarchenkoProofs KissFft FftAux FftSpec FconvSpec FconvProofs PropertiesDft PropertiesRealFft BasopProofs CorrvirSpec Corrvir.
Import ListNotations.
Local Open Scope Z_scope.

(** ** C92 *)
Lemma flat_map_none {A B} (f : A -> list B) l : (forall x, In x l -> f x = []) -> flat_map f l = [].
Proof. induction l as [|h t IH]; intros H; [reflexivity|]. cbn. rewrite (H h) by (now left). apply IH. intros x Hx. apply H. now right. Qed.
(** The traces used are those of sources that both gathers have and that are accepted. *)
Theorem C92_pairs sel bmin bmax sv gv master slave a b : In (a, b) (pairs sel bmin bmax sv gv master slave) <->
  exists m s, In m master /\ In s slave /\ fpos m = a /\ fpos s = b /\ pos m = pos s /\ accept sel bmin bmax sv gv (pos m) = true.
Proof.
  assert (Q : forall m s, same_position m s = true <-> pos m = pos s). { intros [[a1 a2] f] [[b1 b2] h]. unfold same_position. cbn. rewrite andb_true_iff, !Z.eqb_eq. split; [intros [-> ->]; reflexivity|intros E; injection E; auto]. }
  unfold pairs. rewrite in_flat_map. split.
  - intros (m & Hm & H). apply in_flat_map in H. destruct H as (s & Hs & H). destruct (same_position m s && accept sel bmin bmax sv gv (pos s)) eqn:E; [|destruct H]. destruct H as [H|[]]. apply andb_true_iff in E. destruct E as [E1 E2]. apply Q in E1. apply pair_equal_spec in H. exists m, s. rewrite E1. tauto.
  - intros (m & s & Hm & Hs & <- & <- & E1 & E2). exists m. split; [exact Hm|]. apply in_flat_map. exists s. split; [exact Hs|]. rewrite (proj2 (Q m s) E1), <- E1, E2. now left.
Qed.
Print Assumptions C92_pairs.
(** With different positions in a gather there are at most as many pairs as sources, so that the buffers for nsources traces suffice ... *)
Theorem C92_count sel bmin bmax sv gv master slave : NoDup (map pos slave) -> (length (pairs sel bmin bmax sv gv master slave) <= length master)%nat.
Proof.
  intros ND. unfold pairs. induction master as [|m l IH]; [cbn; lia|]. cbn [flat_map length]. rewrite app_length. enough (length (flat_map (fun s => if same_position m s && accept sel bmin bmax sv gv (pos s) then [(fpos m, fpos s)] else []) slave) <= 1)%nat by lia. clear IH.
  assert (Q : forall s, same_position m s = true -> pos m = pos s). { intros s H. unfold same_position in H. apply andb_true_iff in H. destruct H as [A B]. apply Z.eqb_eq in A, B. destruct (pos m), (pos s). cbn in *. congruence. }
  induction slave as [|s t IH]; [cbn; lia|]. cbn [map] in ND. inversion ND as [|? ? N ND']; subst. cbn [flat_map]. rewrite app_length. destruct (same_position m s && accept sel bmin bmax sv gv (pos s)) eqn:E; [|apply IH; exact ND'].
  apply andb_true_iff in E. destruct E as [E _]. apply Q in E. cbn [length]. rewrite flat_map_none; [cbn; lia|].
  intros x Hx. destruct (same_position m x) eqn:F; [|reflexivity]. exfalso. apply N. apply Q in F. rewrite <- E, F. now apply in_map.
Qed.
Print Assumptions C92_count.
(** ... but a position that occurs n times in both gathers gives n*n pairs, which do not fit in buffers for n traces. *)
Theorem C92_repeated_source_refuted n p sv gv : length (pairs 0 1 4 sv gv (repeat (mkSource p 0) n) (repeat (mkSource p 0) n)) = (n * n)%nat.
Proof.
  destruct sv as [sxv syv], gv as [gxv gyv], p as [px py]. unfold pairs. set (f := fun s => _).
  assert (E : forall k, length (flat_map (fun s : source => if same_position (mkSource (px, py) 0) s && accept 0 1 4 (sxv, syv) (gxv, gyv) (pos s) then [(fpos (mkSource (px, py) 0), fpos s)] else []) (repeat (mkSource (px, py) 0) k)) = k).
  { induction k as [|k IH]; [reflexivity|]. cbn [repeat flat_map]. rewrite app_length, IH. unfold same_position. cbn. rewrite !Z.eqb_refl. reflexivity. }
  assert (K : forall k, length (flat_map f (repeat (mkSource (px, py) 0) k)) = (k * n)%nat).
  { induction k as [|k IH]; [reflexivity|]. cbn [repeat flat_map]. rewrite app_length, IH. unfold f at 1. rewrite E. lia. }
  apply K.
Qed.
Print Assumptions C92_repeated_source_refuted.
(** src_sel=3 and 4: sources beyond the virtual source, or on its side of the receiver, in both coordinates. *)
Theorem C92_sides bmin bmax sv gv s : (accept 3 bmin bmax sv gv s = true <-> beyond sv gv s) /\ (accept 4 bmin bmax sv gv s = true <-> same_side sv gv s).
Proof.
  destruct sv as [sxv syv], gv as [gxv gyv], s as [sx sy]. unfold accept, beyond, same_side. cbn [fst snd]. change (3 =? 0) with false. change (3 =? 1) with false. change (3 =? 2) with false. change (3 =? 3) with true.
  change (4 =? 0) with false. change (4 =? 1) with false. change (4 =? 2) with false. change (4 =? 3) with false. change (4 =? 4) with true. cbv iota.
  assert (P : forall a b, a * b > 0 <-> (a > 0 /\ b > 0) \/ (a < 0 /\ b < 0)) by (intros a b; split; [intros X; destruct (Z.lt_trichotomy a 0) as [|[->|]], (Z.lt_trichotomy b 0) as [|[->|]]; try nia; lia|intros [[? ?]|[? ?]]; nia]).
  rewrite !P. clear P.
  destruct (Z.ltb_spec sxv gxv), (Z.ltb_spec gxv sxv), (Z.ltb_spec syv gyv), (Z.ltb_spec gyv syv); try lia; cbn [andb]; rewrite ?andb_true_iff, ?Z.ltb_lt; split; split; try discriminate; intros X; lia.
Qed.
Print Assumptions C92_sides.
(** src_sel=1: a source is used only if it is outside the rectangle in both coordinates, so sources outside of it are rejected. *)
Theorem C92_outside bmin bmax sv gv s : accept 1 bmin bmax sv gv s = true <->
  ~ (Z.min (fst gv) (fst sv) < fst s < Z.max (fst gv) (fst sv)) /\ ~ (Z.min (snd gv) (snd sv) < snd s < Z.max (snd gv) (snd sv)).
Proof.
  destruct sv as [sxv syv], gv as [gxv gyv], s as [sx sy]. unfold accept. cbn [fst snd]. change (1 =? 0) with false. change (1 =? 1) with true. cbv iota. rewrite andb_true_iff, !negb_true_iff, !andb_false_iff, !Z.ltb_ge. lia.
Qed.
Theorem C92_outside_refuted bmin bmax : accept 1 bmin bmax (0, 0) (10, 10) (5, 1000) = false. Proof. reflexivity. Qed.
(** src_sel=2: every source is used, wherever it lies. *)
Theorem C92_donut_refuted bmin bmax sv gv s : 0 <= bmin <= bmax -> accept 2 bmin bmax sv gv s = true.
Proof.
  intros H. destruct sv as [sxv syv], gv as [gxv gyv], s as [sx sy]. unfold accept. change (2 =? 0) with false. change (2 =? 1) with false. change (2 =? 2) with true. cbv iota zeta.
  set (d := (sxv - (sxv + gxv + 1) / 2) * (sxv - (sxv + gxv + 1) / 2) + (syv - (syv + gyv + 1) / 2) * (syv - (syv + gyv + 1) / 2)). assert (D : 0 <= d) by (unfold d; apply Z.add_nonneg_nonneg; apply Z.square_nonneg). clearbody d.
  apply negb_true_iff, andb_false_iff. right. apply Z.ltb_ge. pose proof (Z.square_nonneg bmax) as B. assert (0 <= bmax * bmax * d) by (apply Z.mul_nonneg_nonneg; [exact B|exact D]). lia.
Qed.
Print Assumptions C92_outside.
Print Assumptions C92_outside_refuted.
Print Assumptions C92_donut_refuted.
Example C92_nonvacuous : pairs 3 1 4 (0, 0) (10, 10) [mkSource (-3, -4) 5; mkSource (2, 2) 6] [mkSource (2, 2) 7; mkSource (-3, -4) 8] = [(5, 8)]. Proof. reflexivity. Qed.
