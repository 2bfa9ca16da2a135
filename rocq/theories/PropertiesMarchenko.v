(** Mute windows (C44), positions (C45), integration over the acquisition surface (C46), the
    iteration and the Green's functions (C56), padding on reading (C57), rotation on writing (C58).
    The specification is in MarchenkoSpec.v. *)
From Coq Require Import ZArith QArith Qabs List Bool Lia Ring Permutation Sorted.
From Verif Require Import ListAux FdKernels FdProofs FdOutputProofs Marchenko MarchenkoSpec MarchenkoProofs MarchenkoProofs2 MarchenkoProofs3.
Import ListNotations.
Local Open Scope Z_scope.

(** a commutative ring, as the type of the samples *)
Definition is_ring {V} (v0 v1 : V) (vadd vmul : V -> V -> V) (vopp : V -> V) : Prop := ring_theory v0 v1 vadd vmul (vsub V vadd vopp) vopp eq.

(** ** C44: windows *)
(** Every sample of the traces in use is multiplied by the gain of the window, and nothing else
    changes. *)
Theorem C44_windows V v0 v1 vadd vmul vopp (RT : is_ring v0 v1 vadd vmul vopp) costaper (data : Z -> V) mute smooth above Nfoc nxs nt ixpos shift tsynW :
  above <> -2 -> 0 < nt -> Z.of_nat (length ixpos) <= nxs ->
  let shape l i := shape_of above nt (mute (l * nxs + nth (Z.to_nat i) ixpos 0)) (tsynW (l * nxs + nth (Z.to_nat i) ixpos 0)) shift in
  (forall l i, 0 <= l < Nfoc -> 0 <= i < Z.of_nat (length ixpos) -> inside nt smooth (shape l i)) ->
  let r := applyMute V v0 vmul costaper data mute smooth above Nfoc nxs nt ixpos shift tsynW in
  (forall l i t, 0 <= l < Nfoc -> 0 <= i < Z.of_nat (length ixpos) -> 0 <= t < nt ->
     r (l * nxs * nt + i * nt + t) = vmul (data (l * nxs * nt + i * nt + t)) (gain V v0 v1 costaper smooth (shape l i) t)) /\
  (forall a, (forall l i, 0 <= l < Nfoc -> 0 <= i < Z.of_nat (length ixpos) -> ~ l * nxs * nt + i * nt <= a < l * nxs * nt + i * nt + nt) -> r a = data a).
Proof.
  intros Ha Hn Hp shape Hi r.
  assert (W : forall l i, 0 <= l < Nfoc -> 0 <= i < Z.of_nat (length ixpos) -> Forall (op_fits nt) (window above nt (mute (l * nxs + nth (Z.to_nat i) ixpos 0)) (tsynW (l * nxs + nth (Z.to_nat i) ixpos 0)) shift smooth) /\
     forall t, 0 <= t < nt -> weights V v0 v1 vmul costaper nt smooth (window above nt (mute (l * nxs + nth (Z.to_nat i) ixpos 0)) (tsynW (l * nxs + nth (Z.to_nat i) ixpos 0)) shift smooth) t = gain V v0 v1 costaper smooth (shape l i) t).
  { intros l i Hl Hil. apply (window_shape V v0 v1 vadd vmul (vsub V vadd vopp) vopp RT); [exact Ha|exact Hn|]. now apply Hi. }
  destruct (applyMute_spec V v0 v1 vadd vmul (vsub V vadd vopp) vopp RT costaper data mute smooth above Nfoc nxs nt ixpos shift tsynW Hn Hp) as [M1 M2].
  { intros l i Hl Hil. now apply W. }
  split; [|exact M2]. intros l i t Hl Hil Ht. unfold r. rewrite M1 by assumption. f_equal. now apply W.
Qed.
Print Assumptions C44_windows.

(** The windows for plane waves and for shifted times. *)
Theorem C44_plane_windows V v0 v1 vadd vmul vopp (RT : is_ring v0 v1 vadd vmul vopp) costaper (data : Z -> V) mute mutei smooth above Nfoc nxs nt ixpos shift iter :
  above = 1 \/ above = 4 \/ above = 11 \/ above = 44 -> 0 < nt -> Z.of_nat (length ixpos) <= nxs ->
  let tm l i := mute (l * nxs + nth (Z.to_nat i) ixpos 0) in let tmi l i := mutei (l * nxs + nth (Z.to_nat i) ixpos 0) in
  let shape l i := parity iter (shape_plane above nt smooth (tm l i) (tmi l i) shift) (shape_plane above nt smooth (tmi l i) (tm l i) shift) in
  (forall l i, 0 <= l < Nfoc -> 0 <= i < Z.of_nat (length ixpos) -> inside nt smooth (shape l i)) ->
  let r := applyMute_plane V v0 vmul costaper data mute mutei smooth above Nfoc nxs nt ixpos shift iter in
  (forall l i t, 0 <= l < Nfoc -> 0 <= i < Z.of_nat (length ixpos) -> 0 <= t < nt ->
     r (l * nxs * nt + i * nt + t) = vmul (data (l * nxs * nt + i * nt + t)) (gain V v0 v1 costaper smooth (shape l i) t)) /\
  (forall a, (forall l i, 0 <= l < Nfoc -> 0 <= i < Z.of_nat (length ixpos) -> ~ l * nxs * nt + i * nt <= a < l * nxs * nt + i * nt + nt) -> r a = data a).
Proof.
  intros Ha Hn Hp tm tmi shape Hi r. unfold r, applyMute_plane.
  apply (windows_spec V vmul costaper data Nfoc nxs (Z.of_nat (length ixpos)) nt
    (fun l i m => let Nig := run_window V v0 vmul costaper 0 nt smooth (window_plane above iter nt (tm l i) (tmi l i) shift smooth) (fun j => m (l * nxs * nt + i * nt + j)) in
       fold_left (fun m j => upd m (l * nxs * nt + i * nt + j) (Nig j)) (range 0 nt) m) (fun l i t => gain V v0 v1 costaper smooth (shape l i) t)); [exact Hn|exact Hp|].
  intros l i m Hl Hil. destruct (window_plane_shape V v0 v1 vadd vmul (vsub V vadd vopp) vopp RT costaper above iter nt (tm l i) (tmi l i) shift smooth Ha Hn (Hi l i Hl Hil)) as [F W].
  destruct (copied_window V v0 v1 vadd vmul (vsub V vadd vopp) vopp RT costaper (l * nxs * nt + i * nt) nt smooth _ m Hn F) as [C1 C2]. split; [|exact C2].
  intros t Ht. cbv zeta in C1 |- *. rewrite C1 by assumption. f_equal. now apply W.
Qed.
Print Assumptions C44_plane_windows.
Theorem C44_tshift_windows V v0 v1 vadd vmul vopp (RT : is_ring v0 v1 vadd vmul vopp) costaper (data : Z -> V) mute smooth above Nfoc nxs nt ixpos shift iter tsynW :
  above = 0 \/ above = 4 -> 0 < nt -> Z.of_nat (length ixpos) <= nxs ->
  let tm l i := mute (l * nxs + nth (Z.to_nat i) ixpos 0) in let tmi l i := tm l i - 2 * tsynW (l * nxs + nth (Z.to_nat i) ixpos 0) in
  let kind := if above =? 0 then 1 else 4 in
  let shape l i := parity iter (shape_plane kind nt smooth (tm l i) (tmi l i) shift) (shape_plane kind nt smooth (tmi l i) (tm l i) shift) in
  (forall l i, 0 <= l < Nfoc -> 0 <= i < Z.of_nat (length ixpos) -> inside nt smooth (shape l i)) ->
  let r := applyMute_tshift V v0 vmul costaper data mute smooth above Nfoc nxs nt ixpos shift iter tsynW in
  (forall l i t, 0 <= l < Nfoc -> 0 <= i < Z.of_nat (length ixpos) -> 0 <= t < nt ->
     r (l * nxs * nt + i * nt + t) = vmul (data (l * nxs * nt + i * nt + t)) (gain V v0 v1 costaper smooth (shape l i) t)) /\
  (forall a, (forall l i, 0 <= l < Nfoc -> 0 <= i < Z.of_nat (length ixpos) -> ~ l * nxs * nt + i * nt <= a < l * nxs * nt + i * nt + nt) -> r a = data a).
Proof.
  intros Ha Hn Hp tm tmi kind shape Hi r. unfold r, applyMute_tshift.
  apply (windows_spec V vmul costaper data Nfoc nxs (Z.of_nat (length ixpos)) nt
    (fun l i m => let Nig := run_window V v0 vmul costaper 0 nt smooth (window_tshift above iter nt (tm l i) (tsynW (l * nxs + nth (Z.to_nat i) ixpos 0)) shift smooth) (fun j => m (l * nxs * nt + i * nt + j)) in
       fold_left (fun m j => upd m (l * nxs * nt + i * nt + j) (Nig j)) (range 0 nt) m) (fun l i t => gain V v0 v1 costaper smooth (shape l i) t)); [exact Hn|exact Hp|].
  intros l i m Hl Hil. destruct (window_tshift_shape V v0 v1 vadd vmul (vsub V vadd vopp) vopp RT costaper above iter nt (tm l i) (tsynW (l * nxs + nth (Z.to_nat i) ixpos 0)) shift smooth Ha Hn (Hi l i Hl Hil)) as [F W].
  destruct (copied_window V v0 v1 vadd vmul (vsub V vadd vopp) vopp RT costaper (l * nxs * nt + i * nt) nt smooth _ m Hn F) as [C1 C2]. split; [|exact C2].
  intros t Ht. cbv zeta in C1 |- *. rewrite C1 by assumption. f_equal. now apply W.
Qed.
Print Assumptions C44_tshift_windows.

(** The window of the focusing functions (0) and that of the Green's functions (4) add up to 1. *)
Section Complement.
Variables (V : Type) (v0 v1 : V) (vadd vmul : V -> V -> V) (vopp : V -> V).
Hypothesis RT : is_ring v0 v1 vadd vmul vopp.
Add Ring R44 : (RT : ring_theory v0 v1 vadd vmul (vsub V vadd vopp) vopp eq).
Theorem C44_complement costaper (data : Z -> V) mute smooth Nfoc nxs nt ixpos shift tsynW :
  0 < nt -> Z.of_nat (length ixpos) <= nxs ->
  (forall k, 0 <= k < smooth -> vadd (costaper k) (costaper (smooth - 1 - k)) = v1) ->
  let shape above l i := shape_of above nt (mute (l * nxs + nth (Z.to_nat i) ixpos 0)) (tsynW (l * nxs + nth (Z.to_nat i) ixpos 0)) shift in
  (forall l i, 0 <= l < Nfoc -> 0 <= i < Z.of_nat (length ixpos) -> mute (l * nxs + nth (Z.to_nat i) ixpos 0) < nt / 2 /\ inside nt smooth (shape 0 l i) /\ inside nt smooth (shape 4 l i)) ->
  forall l i t, 0 <= l < Nfoc -> 0 <= i < Z.of_nat (length ixpos) -> 0 <= t < nt -> let a := l * nxs * nt + i * nt + t in
  vadd (applyMute V v0 vmul costaper data mute smooth 0 Nfoc nxs nt ixpos shift tsynW a) (applyMute V v0 vmul costaper data mute smooth 4 Nfoc nxs nt ixpos shift tsynW a) = data a.
Proof.
  intros Hn Hp Hc shape Hi l i t Hl Hil Ht a.
  destruct (C44_windows V v0 v1 vadd vmul vopp RT costaper data mute smooth 0 Nfoc nxs nt ixpos shift tsynW) as [M0 _]; [lia|assumption|assumption|intros; now apply Hi|].
  destruct (C44_windows V v0 v1 vadd vmul vopp RT costaper data mute smooth 4 Nfoc nxs nt ixpos shift tsynW) as [M4 _]; [lia|assumption|assumption|intros; now apply Hi|].
  unfold a. rewrite M0, M4 by assumption. destruct (Hi l i Hl Hil) as (H1 & H2 & H3). unfold shape in *. cbn [shape_of] in *. rewrite (proj2 (Z.ltb_lt _ _) H1) in *. unfold gain.
  set (lo := _ - shift - 2 * _) in *. destruct H2 as (Hs & _). set (d := data _).
  assert (K : forall x y, 0 <= x < smooth -> y = smooth - 1 - x -> vadd (vmul d (costaper x)) (vmul d (costaper y)) = d).
  { intros x y Hx ->. transitivity (vmul d (vadd (costaper x) (costaper (smooth - 1 - x)))); [ring|]. rewrite Hc by assumption. ring. }
  destruct (Z.ltb_spec t (lo - smooth)); [ring|]. destruct (Z.ltb_spec t lo); [apply K; lia|]. destruct (Z.ltb_spec t (nt + 1 - lo)); [ring|].
  destruct (Z.ltb_spec t (nt + 1 - lo + smooth)); [|ring].
  assert (Ea : forall x y : V, vadd x y = vadd y x) by (intros; ring). rewrite Ea. apply K; lia.
Qed.
End Complement.
Print Assumptions C44_complement.

(** Reversal of time: the window 0 is symmetric, and the window for plane waves at odd iterations is
    that at even iterations with the time reversed. *)
Lemma stop_reversed V (v0 v1 : V) c s nt lo lo' t : 0 <= s -> 0 <= t < nt -> s < lo -> s < lo' -> lo <= nt + 1 - lo' ->
  gain V v0 v1 c s (Stop lo (nt + 1 - lo')) (reversed nt t) = gain V v0 v1 c s (Stop lo' (nt + 1 - lo)) t.
Proof.
  intros Hs Ht H1 H2 H3. unfold gain. assert (E : reversed nt t = if t =? 0 then 0 else nt - t).
  { unfold reversed. destruct (Z.eqb_spec t 0) as [->|N]; [apply Z.mod_0_l; lia|]. rewrite Z.mod_opp_l_nz by (try rewrite Z.mod_small by lia; lia). now rewrite Z.mod_small by lia. }
  rewrite E. destruct (Z.eqb_spec t 0) as [->|N]; [now cmp|].
  repeat match goal with |- context [if ?x <? ?y then _ else _] => destruct (Z.ltb_spec x y) end; try (exfalso; lia); try reflexivity; f_equal; lia.
Qed.
Theorem C44_symmetric V (v0 v1 : V) c s nt tm ts sh t : 0 <= t < nt -> inside nt s (shape_of 0 nt tm ts sh) ->
  gain V v0 v1 c s (shape_of 0 nt tm ts sh) (reversed nt t) = gain V v0 v1 c s (shape_of 0 nt tm ts sh) t.
Proof.
  intros Ht Hi. unfold shape_of in *. destruct (tm <? nt / 2); [|reflexivity]. destruct Hi as (Hs & H1 & H2). apply stop_reversed; lia.
Qed.
Print Assumptions C44_symmetric.
Theorem C44_plane_reversed V (v0 v1 : V) c s nt a b sh iter t : 0 <= t < nt ->
  inside nt s (shape_plane 1 nt s a b sh) -> inside nt s (shape_plane 1 nt s b a sh) ->
  let w k := parity k (shape_plane 1 nt s a b sh) (shape_plane 1 nt s b a sh) in
  gain V v0 v1 c s (w (iter + 1)) t = gain V v0 v1 c s (w iter) (reversed nt t).
Proof.
  intros Ht H1 H2 w. unfold w, parity. replace (Z.even (iter + 1)) with (negb (Z.even iter)) by (change (iter + 1) with (Z.succ iter); rewrite Z.even_succ, <- Z.negb_even; reflexivity).
  destruct H1 as (Hs & H1 & H1'), H2 as (_ & H2 & H2'). destruct (Z.even iter); cbn [negb shape_plane]; symmetry; apply stop_reversed; lia.
Qed.
Print Assumptions C44_plane_reversed.

(** What does not hold.  Window -2 leaves a sample between its taper and its muted part; the windows 0
    and 4 are not complementary for late arrivals; nor are those for plane waves with a taper. *)
Theorem C44_minus2_refuted : exists tm ts sh s nt, 0 <= tm - sh /\ tm < nt / 2 /\
  (let r := applyMute Z 0 Z.mul (fun _ => 0) (fun _ => 1) (fun _ => tm) s (-2) 1 1 nt [0] sh (fun _ => ts) in
   r (tm + sh + s - 1) = 0 /\ r (tm + sh + s) = 1 /\ r (tm + sh + s + 1) = 0).
Proof. exists 10, 0, 2, 3, 40. vm_compute. repeat split; congruence. Qed.
Print Assumptions C44_minus2_refuted.
Theorem C44_late_refuted : exists tm sh nt, 0 < tm - sh /\ tm < nt /\
  exists t, 0 <= t < nt /\ applyMute Z 0 Z.mul (fun _ => 0) (fun _ => 1) (fun _ => tm) 0 0 1 1 nt [0] sh (fun _ => 0) t + applyMute Z 0 Z.mul (fun _ => 0) (fun _ => 1) (fun _ => tm) 0 4 1 1 nt [0] sh (fun _ => 0) t <> 1.
Proof. exists 10, 2, 20. repeat split; try lia. exists 0. vm_compute. repeat split; congruence. Qed.
Print Assumptions C44_late_refuted.
Theorem C44_plane_psi_refuted : exists tm tmi sh s nt c, (forall k, 0 <= k < s -> c k + c (s - 1 - k) = 1) /\
  inside nt s (shape_plane 1 nt s tm tmi sh) /\ inside nt s (shape_plane 4 nt s tm tmi sh) /\
  exists t, 0 <= t < nt /\ applyMute_plane Z 0 Z.mul c (fun _ => 1) (fun _ => tm) (fun _ => tmi) s 1 1 1 nt [0] sh 0 t + applyMute_plane Z 0 Z.mul c (fun _ => 1) (fun _ => tm) (fun _ => tmi) s 4 1 1 nt [0] sh 0 t <> 1.
Proof.
  exists 8, 7, 1, 2, 30, (fun k => if k =? 0 then 1 else 0). split.
  - intros k Hk. assert (k = 0 \/ k = 1) as [-> | ->] by lia; reflexivity.
  - cbn. repeat split; try lia. exists 24. vm_compute. repeat split; congruence.
Qed.
Print Assumptions C44_plane_psi_refuted.

Lemma Z_ring : is_ring 0 1 Z.add Z.mul Z.opp.
Proof. constructor; unfold vsub; intros; ring. Qed.
(** a trace of 20 samples with a direct arrival at 7, shift 2, a taper of 2: muted from 5 to 15 *)
Example C44_nonvacuous :
  let c k := if k =? 0 then 3 else 1 in
  inside 20 2 (shape_of 0 20 7 0 2) /\ inside 20 2 (shape_of 4 20 7 0 2) /\
  map (applyMute Z 0 Z.mul c (fun _ => 4) (fun _ => 7) 2 0 1 1 20 [0] 2 (fun _ => 0)) (range 0 20) = [4;4;4;12;4;0;0;0;0;0;0;0;0;0;0;0;4;12;4;4] /\
  map (applyMute Z 0 Z.mul c (fun _ => 4) (fun _ => 7) 2 4 1 1 20 [0] 2 (fun _ => 0)) (range 0 20) = [0;0;0;4;12;4;4;4;4;4;4;4;4;4;4;4;12;4;0;0] /\
  map (fun t => gain Z 0 1 c 2 (shape_of 4 20 7 0 2) t) (range 0 20) = [0;0;0;1;3;1;1;1;1;1;1;1;1;1;1;1;3;1;0;0].
Proof. vm_compute. repeat split; congruence. Qed.
Example C44_plane_nonvacuous :
  inside 20 1 (shape_plane 1 20 1 6 9 1) /\ inside 20 1 (shape_plane 1 20 1 9 6 1) /\ inside 20 1 (shape_plane 4 20 1 6 9 1) /\
  map (applyMute_plane Z 0 Z.mul (fun _ => 5) (fun _ => 1) (fun _ => 6) (fun _ => 9) 1 1 1 1 20 [0] 1 0) (range 0 20) = [1;1;1;1;5;0;0;0;0;0;0;0;0;5;1;1;1;1;1;1] /\
  map (applyMute_plane Z 0 Z.mul (fun _ => 5) (fun _ => 1) (fun _ => 6) (fun _ => 9) 1 1 1 1 20 [0] 1 1) (range 0 20) = [1;1;1;1;1;1;1;5;0;0;0;0;0;0;0;0;5;1;1;1].
Proof. vm_compute. repeat split; congruence. Qed.

(** ** C45: positions *)
Theorem C45_positions fxsb fxse dxs xsrc isxcount countmin reci :
  let '(p, c) := synthesisPositions fxsb fxse dxs xsrc isxcount countmin reci in
  StronglySorted Z.lt p /\
  (forall x, In x p <->
     ((reci = 0 \/ reci = 1) /\ exists s, In s xsrc /\ (fxsb - Qabs fxsb * (1 # 1000) <= s)%Q /\ (s <= fxse + Qabs fxse * (1 # 1000))%Q /\ x = NINT ((s - fxsb) / dxs)%Q) \/
     (reci <> 0 /\ 0 <= x < Z.of_nat (length isxcount) /\ countmin <= nth (Z.to_nat x) isxcount 0)) /\
  c = (if reci =? 0 then isxcount else map (fun n => if countmin <=? n then n else 0) isxcount).
Proof.
  unfold synthesisPositions.
  assert (Ap : forall s, in_aperture fxsb fxse s = true <-> (fxsb - Qabs fxsb * (1 # 1000) <= s)%Q /\ (s <= fxse + Qabs fxse * (1 # 1000))%Q).
  { intros s. unfold in_aperture. rewrite andb_true_iff, !Qle_bool_iff.
    assert (El : (lower fxsb == fxsb - Qabs fxsb * (1 # 1000))%Q).
    { unfold lower. destruct (Qle_bool 0 fxsb) eqn:E; [apply Qle_bool_iff in E; rewrite Qabs_pos by assumption; ring|].
      assert (fxsb <= 0)%Q by (apply Qlt_le_weak, Qnot_le_lt; intros C; apply Qle_bool_iff in C; congruence). rewrite Qabs_neg by assumption. ring. }
    assert (Eu : (upper fxse == fxse + Qabs fxse * (1 # 1000))%Q).
    { unfold upper. destruct (Qle_bool fxse 0) eqn:E; [apply Qle_bool_iff in E; rewrite Qabs_neg by assumption; ring|].
      assert (0 <= fxse)%Q by (apply Qlt_le_weak, Qnot_le_lt; intros C; apply Qle_bool_iff in C; congruence). rewrite Qabs_pos by assumption. ring. }
    rewrite El, Eu. reflexivity. }
  set (p0 := if (reci =? 0) || (reci =? 1) then _ else _).
  assert (H0 : NoDup p0 /\ forall x, In x p0 <-> (reci = 0 \/ reci = 1) /\ exists s, In s xsrc /\ (fxsb - Qabs fxsb * (1 # 1000) <= s)%Q /\ (s <= fxse + Qabs fxse * (1 # 1000))%Q /\ x = NINT ((s - fxsb) / dxs)%Q).
  { unfold p0. destruct ((reci =? 0) || (reci =? 1)) eqn:E.
    - apply orb_true_iff in E. rewrite !Z.eqb_eq in E. destruct (fold_positions (in_aperture fxsb fxse) (position fxsb dxs) xsrc []) as [N I]. split; [apply N; constructor|].
      intros x. cbv zeta in I. rewrite I. cbn [In]. split.
      + intros [[]|(s & Hs & Pa & ->)]. apply Ap in Pa as [P1 P2]. split; [exact E|]. exists s. auto.
      + intros (_ & s & Hs & P1 & P2 & ->). right. exists s. split; [exact Hs|]. split; [now apply Ap|reflexivity].
    - apply orb_false_iff in E. rewrite !Z.eqb_neq in E. split; [constructor|]. intros x. cbn. split; [intros []|intros [C _]; lia]. }
  clearbody p0. destruct H0 as [N0 I0]. destruct (Z.eqb_spec reci 0) as [E|E].
  - split; [|split; [|reflexivity]].
    + apply sorted_strict; [|apply isort_sorted]. eapply Permutation_NoDup; [symmetry; apply isort_perm|exact N0].
    + intros x. assert (Ip : In x (isort p0) <-> In x p0) by (split; apply Permutation_in; [|symmetry]; apply isort_perm). rewrite Ip, I0. split; [now left|intros [H|[C _]]; [exact H|congruence]].
  - destruct (fold_positions (fun k => countmin <=? nth (Z.to_nat k) isxcount 0) (fun k => k) (range 0 (Z.of_nat (length isxcount))) p0) as [N I]. cbv zeta beta in N, I.
    set (p1 := fold_left _ _ _) in *. split; [|split; [|reflexivity]].
    + apply sorted_strict; [|apply isort_sorted]. eapply Permutation_NoDup; [symmetry; apply isort_perm|now apply N].
    + intros x. assert (Ip : In x (isort p1) <-> In x p1) by (split; apply Permutation_in; [|symmetry]; apply isort_perm). rewrite Ip, I, I0. split.
      * intros [H|(k & Hk & Hc & ->)]; [now left|right]. apply in_range in Hk. apply Z.leb_le in Hc. auto.
      * intros [H|(_ & Hk & Hc)]; [now left|right]. exists x. split; [now apply in_range|]. split; [now apply Z.leb_le|reflexivity].
Qed.
Print Assumptions C45_positions.

(** A position is the nearest grid point of its shot. *)
Theorem C45_nearest q : (Qabs (q - inject_Z (NINT q)) <= 1 # 2)%Q.
Proof.
  assert (H : (- (1 # 2) <= q - inject_Z (NINT q) /\ q - inject_Z (NINT q) <= 1 # 2)%Q).
  { unfold NINT. destruct (Qle_bool q 0) eqn:E.
    - apply Qle_bool_iff in E. destruct q as [a b]. unfold Qle, Qminus, Qplus, Qopp, inject_Z in *. cbn in *.
      replace (a * 2 + Z.neg b) with (- (Z.pos b - a * 2)) by lia. rewrite Z.quot_opp_l by lia. rewrite Z.quot_div_nonneg by lia.
      pose proof (Z.mul_div_le (Z.pos b - a * 2) (Z.pos (b * 2)) ltac:(lia)). pose proof (Z.mul_succ_div_gt (Z.pos b - a * 2) (Z.pos (b * 2)) ltac:(lia)).
      set (k := (Z.pos b - a * 2) / Z.pos (b * 2)) in *. split; nia.
    - assert (E' : (0 < q)%Q) by (apply Qnot_le_lt; intros C; apply Qle_bool_iff in C; congruence).
      destruct q as [a b]. unfold Qle, Qlt, Qminus, Qplus, Qopp, inject_Z in *. cbn in *. rewrite Z.quot_div_nonneg by lia.
      pose proof (Z.mul_div_le (a * 2 + Z.pos b) (Z.pos (b * 2)) ltac:(lia)). pose proof (Z.mul_succ_div_gt (a * 2 + Z.pos b) (Z.pos (b * 2)) ltac:(lia)).
      replace (a * 2 + 1 * Z.pos b) with (a * 2 + Z.pos b) in * by lia. set (k := (a * 2 + Z.pos b) / Z.pos (b * 2)) in *. split; nia. }
  apply Qabs_case; intros _; [apply H|]. destruct H as [H _]. setoid_replace (1 # 2)%Q with (- - (1 # 2))%Q by reflexivity. now apply Qopp_le_compat.
Qed.
Print Assumptions C45_nearest.

(** The positions are on the grid if the tolerance of the aperture is less than half a step. *)
Theorem C45_in_grid fxsb fxse dxs nxs xsrc isxcount countmin reci :
  (0 < dxs)%Q -> (fxse == fxsb + inject_Z (nxs - 1) * dxs)%Q -> Z.of_nat (length isxcount) = nxs ->
  (Qabs fxsb * (1 # 1000) < dxs * (1 # 2))%Q -> (Qabs fxse * (1 # 1000) < dxs * (1 # 2))%Q ->
  forall x, In x (fst (synthesisPositions fxsb fxse dxs xsrc isxcount countmin reci)) -> 0 <= x < nxs.
Proof.
  intros Hd He Hn H1 H2 x Hx. pose proof (C45_positions fxsb fxse dxs xsrc isxcount countmin reci) as P. destruct (synthesisPositions _ _ _ _ _ _ _) as [p c]. cbn [fst] in Hx.
  destruct P as (_ & P & _). apply P in Hx as [(_ & s & _ & S1 & S2 & ->)|(_ & Hx & _)]; [|lia].
  apply NINT_range.
  - apply Qlt_shift_div_l; [exact Hd|]. apply Qlt_le_trans with (- (Qabs fxsb * (1 # 1000)))%Q.
    + setoid_replace (- (1 # 2) * dxs)%Q with (- (dxs * (1 # 2)))%Q by ring. apply Qopp_lt_compat in H1. exact H1.
    + apply Qplus_le_r with fxsb. setoid_replace (fxsb + (s - fxsb))%Q with s by ring. setoid_replace (fxsb + - (Qabs fxsb * (1 # 1000)))%Q with (fxsb - Qabs fxsb * (1 # 1000))%Q by ring. exact S1.
  - apply Qlt_shift_div_r; [exact Hd|]. apply Qle_lt_trans with (fxse - fxsb + Qabs fxse * (1 # 1000))%Q.
    + apply Qplus_le_r with fxsb. setoid_replace (fxsb + (s - fxsb))%Q with s by ring. setoid_replace (fxsb + (fxse - fxsb + Qabs fxse * (1 # 1000)))%Q with (fxse + Qabs fxse * (1 # 1000))%Q by ring. exact S2.
    + rewrite He at 1. apply Qlt_le_trans with (fxsb + inject_Z (nxs - 1) * dxs - fxsb + dxs * (1 # 2))%Q; [now apply Qplus_lt_r|].
      unfold Z.sub. rewrite inject_Z_plus. setoid_replace (inject_Z (- (1))) with (- (1))%Q by reflexivity.
      setoid_replace (fxsb + (inject_Z nxs + - (1)) * dxs - fxsb + dxs * (1 # 2))%Q with ((inject_Z nxs - (1 # 2)) * dxs)%Q by ring. apply Qle_refl.
Qed.
Print Assumptions C45_in_grid.
(** otherwise they need not be *)
Theorem C45_off_grid_refuted : exists fxsb fxse dxs nxs xsrc, (0 < dxs)%Q /\ (fxse == fxsb + inject_Z (nxs - 1) * dxs)%Q /\
  exists x, In x (fst (synthesisPositions fxsb fxse dxs xsrc (repeat 0 (Z.to_nat nxs)) 0 0)) /\ x < 0.
Proof. exists 10000%Q, 10045%Q, 5%Q, 10, [9995%Q; 10000%Q]. vm_compute. repeat split. exists (-1). split; [now left|reflexivity]. Qed.
Print Assumptions C45_off_grid_refuted.
Example C45_nonvacuous : synthesisPositions (-10)%Q 30%Q 10%Q [20; -10; -30; 10; 9]%Q [4; 0; 1; 2; 0] 1 1 = ([0; 2; 3], [4; 0; 1; 2; 0]) /\
  synthesisPositions (-10)%Q 30%Q 10%Q [20; -10; -30; 10; 9]%Q [4; 0; 1; 2; 0] 2 2 = ([0; 3], [4; 0; 0; 2; 0]) /\
  fst (synthesisPositions (-10)%Q 30%Q 10%Q [20; -10; -30; 10; 9]%Q [4; 0; 1; 2; 0] 2 0) = [0; 2; 3].
Proof. vm_compute. auto. Qed.

(** ** C46: integration *)
(** an execution of a loop by threads: the iterations ks are divided over the threads in any way, and
    the loads and stores of the threads are interleaved in any way until all are done *)
Definition parallel_loop {V} (work : Z -> list (instr V)) (ks : list Z) (m m' : Z -> V) : Prop :=
  exists (iters : list (list Z)) (sched : list nat), Permutation (concat iters) ks /\
  let s := run_team V (m, map (fun ks => mk_thread V None (flat_map work ks)) iters) sched in
  Forall (fun t => todo V t = []) (snd s) /\ fst s = m'.
Lemma parallel_serial {V} (work : Z -> list (instr V)) ks m m' : NoDup (map fst (flat_map work ks)) -> parallel_loop work ks m m' -> forall x, m' x = run_serial V m (flat_map work ks) x.
Proof.
  intros ND (iters & sched & P & D & <-) x.
  assert (E : map (fun ks => mk_thread V None (flat_map work ks)) iters = map (mk_thread V None) (map (flat_map work) iters)) by now rewrite map_map.
  rewrite E in *. apply team_serial; [exact ND| |exact D].
  assert (C : concat (map (flat_map work) iters) = flat_map work (concat iters)) by (clear; induction iters as [|i iters IH]; cbn; [reflexivity|]; now rewrite IH, flat_map_app).
  rewrite C. clear -P. induction P; cbn; [constructor|now apply Permutation_app_head| |etransitivity; eassumption].
  rewrite !app_assoc. apply Permutation_app_tail, Permutation_app_comm.
Qed.
(** Whatever the threads do, the loops over the shots and over the reciprocal shots give the result
    of the serial code, if no two shots in use are at one position. *)
Theorem C46_schedules V v0 vadd vmul vopp rc cr (A : acquisition V) first Fop Top mode reci ixpos m1 m2 :
  geometry V A -> distinct_shots V A ->
  let Fop' := set_operator V v0 vopp rc A first Fop Top mode ixpos in
  (if (reci =? 0) || (reci =? 1) then parallel_loop (shot_work V v0 vadd vmul vopp cr A Fop') (range 0 (Z.of_nat (nshots V A))) (fun _ => v0) m1 else m1 = (fun _ => v0)) ->
  (if reci =? 0 then m2 = m1 else parallel_loop (reci_work V v0 vadd vmul vopp cr A Fop') (range 0 (nxs V A)) m1 m2) ->
  forall x, m2 x = snd (synthesis V v0 vadd vmul vopp rc cr A first Fop Top mode reci ixpos) x.
Proof.
  intros G D Fop' H1 H2 x. unfold synthesis. cbv zeta. cbn [snd]. fold Fop'.
  set (s1 := if (reci =? 0) || (reci =? 1) then run_serial _ _ _ else _).
  assert (E1 : forall y, m1 y = s1 y).
  { intros y. unfold s1. destruct ((reci =? 0) || (reci =? 1)); [|now rewrite H1]. apply parallel_serial; [|exact H1]. now apply (shots_NoDup V v0 v0 vadd vmul vopp rc cr A Fop'). }
  destruct (reci =? 0); [rewrite H2; apply E1|].
  rewrite (parallel_serial _ _ _ _ (reci_NoDup V v0 v0 vadd vmul vopp rc cr A Fop') H2). now apply serial_ext.
Qed.
Print Assumptions C46_schedules.

(** The result: at every position the sum over the shots there of the integral over their receivers,
    completed by reciprocity. *)
Theorem C46_result V v0 v1 vadd vmul vopp (RT : is_ring v0 v1 vadd vmul vopp) rc cr (A : acquisition V) ixpos first Fop Top mode reci F :
  (forall f g, (forall j, 0 <= j < nts V A -> f j = g j) -> forall w, rc f w = rc g w) -> (forall w, rc (fun _ => v0) w = (v0, v0)) ->
  (forall f g, (forall w, f w = g w) -> forall j, cr f j = cr g j) ->
  geometry V A -> NoDup ixpos -> (forall x, In x ixpos -> 0 <= x < nxs V A) ->
  (if first : bool then stored V A Top F else packed V A ixpos Top F /\ vanishes_off V v0 ixpos F) ->
  forall l x j, 0 <= l < Nfoc V A -> 0 <= x < nxs V A -> 0 <= j < nts V A ->
  snd (synthesis V v0 vadd vmul vopp rc cr A first Fop Top mode reci ixpos) (l * nxs V A * nts V A + x * nts V A + j) = integrated V v0 vadd vmul vopp rc cr A mode reci F l x j.
Proof. intros H1 H2 H3 G N I HF. now apply (synthesis_spec V v0 v1 vadd vmul vopp RT). Qed.
Print Assumptions C46_result.

(** a small acquisition: two shots with two receivers each, and the identity for the transforms *)
Definition exA (x0 x1 : Q) : acquisition Z :=
  {| nxs := 2; nts := 4; nw := 4; nw_low := 0; nx := 2; Nfoc := 1; fxsb := 0%Q; fxse := 1%Q; dxs := 1%Q; xsrc := [x0; x1]; xrcv := fun a => inject_Z (a mod 2); xnx := fun _ => 2;
     dx := 1; dxsrc := 1; scl := 1; Refl := fun a => (a mod 3, 0); isxcount := fun x => if x =? 0 then 1 else 0; reci_xrcv := fun _ => 1; reci_xsrc := fun _ => 0; ixmask := fun _ => 2 |}.
Definition ex_rc (f : Z -> Z) (w : Z) : Z * Z := (f (w mod 4), 0).
Definition ex_cr (f : Z -> Z * Z) (j : Z) : Z := fst (f j).
Definition ex_data (a : Z) : Z := a + 1.
(** Two shots at one position: a schedule of two threads loses the contribution of one of them. *)
Theorem C46_same_position_refuted : exists (A : acquisition Z) m,
  geometry Z A /\
  let Fop := set_operator Z 0 Z.opp ex_rc A true (fun _ => (0, 0)) ex_data true [0] in
  parallel_loop (shot_work Z 0 Z.add Z.mul Z.opp ex_cr A Fop) (range 0 (Z.of_nat (nshots Z A))) (fun _ => 0) m /\
  m 0 <> snd (synthesis Z 0 Z.add Z.mul Z.opp ex_rc ex_cr A true (fun _ => (0, 0)) ex_data true 0 [0]) 0.
Proof.
  set (A := exA 0 0). set (Fop := set_operator Z 0 Z.opp ex_rc A true (fun _ => (0, 0)) ex_data true [0]).
  set (sched := [0%nat; 1%nat; 0%nat; 1%nat] ++ concat (repeat [0%nat; 1%nat] 20)).
  exists A, (fst (run_team Z (fun _ => 0, map (fun ks => mk_thread Z None (flat_map (shot_work Z 0 Z.add Z.mul Z.opp ex_cr A Fop) ks)) [[0]; [1]]) sched)). split; [|split].
  - split; cbn -[position in_aperture]; try lia.
    + intros k Hk _. assert (k = 0 \/ k = 1) as [-> | ->] by lia; vm_compute; split; congruence.
    + intros k i Hk _ Hi. unfold receiver_at. cbn -[position]. assert (k = 0 \/ k = 1) as [-> | ->] by lia; assert (i = 0 \/ i = 1) as [-> | ->] by lia; vm_compute; split; congruence.
    + intros x i Hx Hi. vm_compute. split; congruence.
  - exists [[0]; [1]], sched. split; [reflexivity|]. split; [|reflexivity]. vm_compute. repeat constructor.
  - vm_compute. congruence.
Qed.
Print Assumptions C46_same_position_refuted.
Lemma exA_geometry : geometry Z (exA 0 1) /\ distinct_shots Z (exA 0 1).
Proof.
  split.
  - split; cbn -[position in_aperture]; try lia.
    + intros k Hk _. assert (k = 0 \/ k = 1) as [-> | ->] by lia; vm_compute; split; congruence.
    + intros k i Hk _ Hi. unfold receiver_at. cbn -[position]. assert (k = 0 \/ k = 1) as [-> | ->] by lia; assert (i = 0 \/ i = 1) as [-> | ->] by lia; vm_compute; split; congruence.
    + intros x i Hx Hi. vm_compute. split; congruence.
  - intros k k' Hk Hk' _ _. cbn in Hk, Hk'. assert (k = 0 \/ k = 1) as [-> | ->] by lia; assert (k' = 0 \/ k' = 1) as [-> | ->] by lia; vm_compute; congruence.
Qed.
Lemma ex_transforms : (forall f g, (forall j, 0 <= j < 4 -> f j = g j) -> forall w, ex_rc f w = ex_rc g w) /\ (forall w, ex_rc (fun _ => 0) w = (0, 0)) /\ (forall f g, (forall w, f w = g w) -> forall j, ex_cr f j = ex_cr g j).
Proof.
  split; [|split].
  - intros f g H w. unfold ex_rc. rewrite H; [reflexivity|]. apply Z.mod_pos_bound. lia.
  - reflexivity.
  - intros f g H j. unfold ex_cr. now rewrite H.
Qed.
Example C46_nonvacuous : let A := exA 0 1 in
  geometry Z A /\ distinct_shots Z A /\
  map (snd (synthesis Z 0 Z.add Z.mul Z.opp ex_rc ex_cr A true (fun _ => (0, 0)) ex_data true 0 [0; 1])) (range 0 8) = [5; 4; 17; 8; 2; 14; 7; 8] /\
  map (fun a => integrated Z 0 Z.add Z.mul Z.opp ex_rc ex_cr A true 0 (fun l x j => ex_data (l * 2 * 4 + x * 4 + j)) 0 (a / 4) (a mod 4)) (range 0 8) = [5; 4; 17; 8; 2; 14; 7; 8] /\
  exists m, parallel_loop (shot_work Z 0 Z.add Z.mul Z.opp ex_cr A (fun _ => (1, 0))) (range 0 (Z.of_nat (nshots Z A))) (fun _ => 0) m.
Proof.
  split; [apply exA_geometry|]. split; [apply exA_geometry|]. split; [vm_compute; reflexivity|]. split; [vm_compute; reflexivity|].
  eexists. exists [[1]; [0]], (concat (repeat [0%nat; 1%nat] 20)). split; [constructor|]. split; [vm_compute; repeat constructor|reflexivity].
Qed.

(** ** C56: the iteration *)
(** the conditions on a run: the transforms are linear, the geometry fits the grid, and the windows
    lie within the traces *)
Section Iteration.
Variables (V : Type) (v0 v1 : V) (vadd vmul : V -> V -> V) (vopp : V -> V).
Variable costaper : Z -> V.
Variables (rc : (Z -> V) -> Z -> V * V) (cr : (Z -> V * V) -> Z -> V).
Variable A : acquisition V.
Variables (ixpos : list Z) (mute tsynW : Z -> Z) (smooth shift above reci : Z).
Record linear : Prop := mk_linear {
  l_rc_ext : forall f g, (forall j, 0 <= j < nts V A -> f j = g j) -> forall w, rc f w = rc g w;
  l_cr_ext : forall f g, (forall w, f w = g w) -> forall j, cr f j = cr g j;
  l_rc_add : forall f g w, rc (fun j => vadd (f j) (g j)) w = cadd V vadd (rc f w) (rc g w);
  l_rc_opp : forall f w, rc (fun j => vopp (f j)) w = (vopp (fst (rc f w)), vopp (snd (rc f w)));
  l_cr_add : forall f g j, cr (fun w => cadd V vadd (f w) (g w)) j = vadd (cr f j) (cr g j);
  l_cr_opp : forall f j, cr (fun w => (vopp (fst (f w)), vopp (snd (f w)))) j = vopp (cr f j) }.
Definition shape_at (ab l x : Z) : shape := shape_of ab (nts V A) (mute (l * nxs V A + x)) (tsynW (l * nxs V A + x)) shift.
Record run_ready : Prop := mk_ready {
  r_lin : linear; r_geo : geometry V A; r_nodup : NoDup ixpos; r_pos : forall x, In x ixpos -> 0 <= x < nxs V A;
  r_above : above <> 2 /\ above <> -2;
  r_win : forall l x, 0 <= l < Nfoc V A -> In x ixpos -> inside (nts V A) smooth (shape_at (- above) l x) /\ inside (nts V A) smooth (shape_at 4 l x) }.
Definition theta : field V := fun l x t => gain V v0 v1 costaper smooth (shape_at (- above) l x) t.
Definition psi : field V := fun l x t => gain V v0 v1 costaper smooth (shape_at 4 l x) t.
(** entry of an array at focal point l, at the i-th position, at time j *)
Definition entry (f : Z -> V) (l : Z) (i : nat) (j : Z) : V := f (l * nxs V A * nts V A + Z.of_nat i * nts V A + j).
Variable G_d : Z -> V.
Definition Gd : field V := fun l x j => G_d (l * nxs V A * nts V A + x * nts V A + j).
Definition run (niter : nat) : fields V := marchenko V v0 vadd vmul vopp costaper rc cr A mute tsynW smooth shift above reci ixpos G_d (Z.of_nat niter).
Notation spec f := (f V v0 vadd vmul vopp rc cr A reci ixpos theta Gd).

(** After niter iterations the arrays hold the sums of the fields N_k: f2p all, f1plus the even ones,
    f1min minus the odd ones reversed in time, pmin the integrated ones. *)
Theorem C56_iteration (RT : is_ring v0 v1 vadd vmul vopp) : run_ready -> forall niter l i x j, 0 <= l < Nfoc V A -> nth_error ixpos i = Some x -> 0 <= j < nts V A ->
  entry (f2p V (run niter)) l i j = spec f2_plus niter l x j /\
  entry (f1plus V (run niter)) l i j = spec f1_plus niter l x j /\
  entry (f1min V (run niter)) l i j = spec f1_min niter l x j /\
  entry (pmin V (run niter)) l i j = spec p_min niter l x j.
Proof.
  intros [L G ND IX [Ab Ab'] W] niter l i x j Hl Hi Hj. destruct L as [L1 L2 L3 L4 L5 L6].
  assert (Ps : pos ixpos (Z.of_nat i) = x) by (unfold pos; rewrite Nat2Z.id; now apply nth_error_nth).
  assert (Hn : 0 <= Z.of_nat i < Z.of_nat (length ixpos)) by (assert (i < length ixpos)%nat by (apply nth_error_Some; congruence); lia).
  assert (Fi : fits V A ixpos mute tsynW smooth shift (- above)) by (split; [lia|]; intros l' x' Hl' Hx'; now apply W).
  pose proof (run_ok V v0 v1 vadd vmul vopp RT costaper rc cr A ixpos mute tsynW smooth shift above reci L1 L2 (rc_zero' V v0 v1 vadd vmul vopp RT rc A L1 L3) G ND IX Fi Ab' G_d niter) as [_ _ O1 O2 O3 O4].
  rewrite <- Ps. repeat split; [now apply O2|now apply O3|now apply O4|now apply O1].
Qed.
(** The coupled Marchenko equations: after an odd number of iterations f1min = theta (R f1plus), with
    the window reversed; after an even number f1plus - G_d = theta (R (f1min reversed)) reversed. *)
Theorem C56_equations (RT : is_ring v0 v1 vadd vmul vopp) : run_ready -> forall niter l x j, In x ixpos -> 0 <= j < nts V A ->
  let R := integrated V v0 vadd vmul vopp rc cr A true reci in let rev := reversed (nts V A) in
  (Nat.odd niter = true -> spec f1_min niter l x j = vmul (theta l x (rev j)) (R (spec f1_plus niter) l x j)) /\
  (Nat.even niter = true -> vadd (spec f1_plus niter l x j) (vopp (Gd l x j)) = vmul (theta l x j) (R (fun l x t => spec f1_min niter l x (rev t)) l x (rev j))).
Proof.
  intros [L G ND IX [Ab Ab'] W] niter l x j Hx Hj R rev. destruct L as [L1 L2 L3 L4 L5 L6]. split; intros Hp.
  - apply (marchenko_odd V v0 v1 vadd vmul vopp RT); assumption.
  - apply (marchenko_even V v0 v1 vadd vmul vopp RT); assumption.
Qed.
(** the Green's functions *)
Theorem C56_greens (RT : is_ring v0 v1 vadd vmul vopp) : run_ready -> forall niter l i x j, 0 <= l < Nfoc V A -> nth_error ixpos i = Some x -> 0 <= j < nts V A ->
  let R mode := integrated V v0 vadd vmul vopp rc cr A mode reci in let rev := reversed (nts V A) in
  let s := run niter in let res := restricted V v0 ixpos in
  entry (green V v0 vadd vmul costaper A mute tsynW smooth shift ixpos s) l i j =
    vmul (if mute (l * nxs V A + x) <? nts V A / 2 then vadd (spec f2_plus niter l x (rev j)) (spec p_min niter l x j) else v0) (psi l x j) /\
  ((0 < niter)%nat ->
   entry (Gmin V v0 vadd vmul vopp costaper rc cr A mute tsynW smooth shift reci ixpos (Z.of_nat niter) G_d s) l i j =
     vmul (vadd (R true (res (spec f1_plus niter)) l x j) (vopp (spec f1_min niter l x j))) (psi l x j) /\
   forall gmin, entry (Gplus V v0 vadd vmul vopp costaper rc cr A mute tsynW smooth shift reci ixpos gmin (Z.of_nat niter) G_d s) l i j =
     vmul (vadd (vopp (R false (res (spec f1_min niter)) l x j)) (spec f1_plus niter l x (rev j))) (psi l x j)).
Proof.
  intros [L G ND IX [Ab Ab'] W] niter l i x j Hl Hi Hj. destruct L as [L1 L2 L3 L4 L5 L6]. cbv zeta.
  assert (Ps : pos ixpos (Z.of_nat i) = x) by (unfold pos; rewrite Nat2Z.id; now apply nth_error_nth).
  assert (Hn : 0 <= Z.of_nat i < Z.of_nat (length ixpos)) by (assert (i < length ixpos)%nat by (apply nth_error_Some; congruence); lia).
  assert (Fi : fits V A ixpos mute tsynW smooth shift (- above)) by (split; [lia|]; intros l' x' Hl' Hx'; now apply W).
  assert (F4 : fits V A ixpos mute tsynW smooth shift 4) by (split; [lia|]; intros l' x' Hl' Hx'; now apply W).
  pose proof (rc_zero' V v0 v1 vadd vmul vopp RT rc A L1 L3) as Z0.
  pose proof (run_ok V v0 v1 vadd vmul vopp RT costaper rc cr A ixpos mute tsynW smooth shift above reci L1 L2 Z0 G ND IX Fi Ab' G_d niter) as O.
  rewrite <- Ps. split; [|intros H0; split].
  - pose proof (green_spec V v0 v1 vadd vmul vopp RT costaper rc cr A ixpos mute tsynW smooth shift above reci Z0 G ND IX G_d F4 niter _ O l (Z.of_nat i) j Hl Hn Hj) as E.
    unfold at_ in E. unfold entry, run. rewrite E. f_equal. destruct (Z.leb_spec (nts V A / 2) (mute (l * nxs V A + pos ixpos (Z.of_nat i)))), (Z.ltb_spec (mute (l * nxs V A + pos ixpos (Z.of_nat i))) (nts V A / 2)); try (exfalso; lia); reflexivity.
  - exact (Gmin_spec V v0 v1 vadd vmul vopp RT costaper rc cr A ixpos mute tsynW smooth shift above reci L1 L2 Z0 G ND IX G_d F4 niter _ H0 O l (Z.of_nat i) j Hl Hn Hj).
  - intros gmin. exact (Gplus_spec V v0 v1 vadd vmul vopp RT costaper rc cr A ixpos mute tsynW smooth shift above reci L1 L2 Z0 G ND IX G_d F4 niter _ gmin H0 O l (Z.of_nat i) j Hl Hn Hj).
Qed.
End Iteration.
Print Assumptions C56_iteration.
Print Assumptions C56_equations.
Print Assumptions C56_greens.

Lemma ex_ready : run_ready Z Z.add Z.opp ex_rc ex_cr (exA 0 1) [0; 1] (fun _ => 1) (fun _ => 0) 0 0 0.
Proof.
  destruct ex_transforms as (T1 & T2 & T3). split.
  - split; [exact T1|exact T3|reflexivity|reflexivity|reflexivity|reflexivity].
  - apply exA_geometry.
  - repeat constructor; cbn; lia.
  - cbn. lia.
  - lia.
  - intros l x _ _. vm_compute. repeat split; congruence.
Qed.
Example C56_nonvacuous :
  run_ready Z Z.add Z.opp ex_rc ex_cr (exA 0 1) [0; 1] (fun _ => 1) (fun _ => 0) 0 0 0 /\
  (let s := run Z 0 Z.add Z.mul Z.opp (fun _ => 0) ex_rc ex_cr (exA 0 1) [0; 1] (fun _ => 1) (fun _ => 0) 0 0 0 0 (fun a => a + 1) 2 in
   map (f2p Z s) (range 0 8) = [-2; 2; 3; 4; 13; 6; 7; 8] /\ map (f1min Z s) (range 0 8) = [5; 0; 0; 0; 2; 0; 0; 0] /\ map (pmin Z s) (range 0 8) = [3; 4; 17; 8; -8; 14; 7; 8] ).
Proof. split; [exact ex_ready|]. vm_compute. repeat split; reflexivity. Qed.
(** Without iterations and with positions that do not cover the grid, asking for the upgoing Green's
    function changes the downgoing one. *)
Theorem C56_no_iterations_refuted : exists (A : acquisition Z) ixpos (G_d : Z -> Z),
  geometry Z A /\ NoDup ixpos /\ (forall x, In x ixpos -> 0 <= x < nxs Z A) /\
  let s := run Z 0 Z.add Z.mul Z.opp (fun _ => 0) ex_rc ex_cr A ixpos (fun _ => 1) (fun _ => 0) 0 0 0 0 G_d 0 in
  let g gmin := Gplus Z 0 Z.add Z.mul Z.opp (fun _ => 0) ex_rc ex_cr A (fun _ => 1) (fun _ => 0) 0 0 0 ixpos gmin 0 G_d s in
  g true 2 <> g false 2.
Proof.
  exists (exA 5 1), [1], (fun a => a + 1). split.
  - split; cbn -[position in_aperture]; try lia.
    + intros k Hk. assert (k = 0 \/ k = 1) as [-> | ->] by lia; vm_compute; [congruence|split; congruence].
    + intros k i Hk _ Hi. unfold receiver_at. cbn -[position]. assert (k = 0 \/ k = 1) as [-> | ->] by lia; assert (i = 0 \/ i = 1) as [-> | ->] by lia; vm_compute; split; congruence.
    + intros x i Hx Hi. vm_compute. split; congruence.
  - split; [repeat constructor; cbn; lia|]. split; [cbn; lia|]. vm_compute. congruence.
Qed.
Print Assumptions C56_no_iterations_refuted.

(** ** C57: padding *)
(** Of a trace of nt samples that is extended to ntfft, the samples 0..nt-2 are kept and nt-1..ntfft-2
    are cleared. *)
Theorem C57_padding V (zero : V) nt ntfft trace j : 0 <= nt -> nt < ntfft -> 0 <= j ->
  pad_trace zero nt ntfft trace j = if (nt - 1 <=? j) && (j <? ntfft - 1) then zero else trace j.
Proof.
  intros Hn Hf Hj. unfold pad_trace. rewrite (proj2 (Z.ltb_lt nt ntfft) Hf).
  destruct (Z.leb_spec (nt - 1) j); [destruct (Z.ltb_spec j (ntfft - 1))|]; cbn [andb].
  - replace j with (nt - 1 + (j - (nt - 1))) by lia. apply (fold_upd_hit (fun k => nt - 1 + k) (fun _ _ => zero)); [apply map_range_NoDup; lia|apply in_range; lia].
  - apply (fold_upd_miss (fun k => nt - 1 + k) (fun _ _ => zero)). intros Hi. apply in_map_iff in Hi as (k & <- & Hk). apply in_range in Hk. lia.
  - apply (fold_upd_miss (fun k => nt - 1 + k) (fun _ _ => zero)). intros Hi. apply in_map_iff in Hi as (k & <- & Hk). apply in_range in Hk. lia.
Qed.
Print Assumptions C57_padding.
(** So the last sample of the data is lost, for every trace and every larger length. *)
Theorem C57_padding_refuted : forall nt ntfft (trace : Z -> Z), 1 <= nt < ntfft -> trace (nt - 1) <> 0 -> ~ (forall j, 0 <= j < nt -> pad_trace 0 nt ntfft trace j = trace j).
Proof. intros nt ntfft trace Hn Ht H. specialize (H (nt - 1) ltac:(lia)). rewrite C57_padding in H by lia. rewrite Z.leb_refl, (proj2 (Z.ltb_lt _ _)) in H by lia. cbn in H. congruence. Qed.
Print Assumptions C57_padding_refuted.
Example C57_nonvacuous : map (pad_trace 0 3 6 (fun j => j + 1)) (range 0 6) = [1; 2; 0; 0; 0; 6].
Proof. vm_compute. reflexivity. Qed.

(** ** C58: rotation of the time axis *)
Theorem C58_rotation V (tr : Z -> V) n1 j : 0 <= j < n1 -> Z.even n1 = true -> rotate V n1 tr j = tr ((j + n1 / 2) mod n1).
Proof.
  intros Hj He. apply Z.even_spec in He as [h ->]. rewrite (Z.mul_comm 2 h), Z.div_mul by lia. unfold rotate. rewrite (Z.mul_comm h 2), (Z.mul_comm 2 h), Z.div_mul by lia.
  destruct (Z.lt_ge_cases j h).
  - rewrite Z.mod_small by lia. replace j with (j + h - h) at 1 by lia.
    apply (fold_upd_hit (fun k => k - h) (fun k _ => tr k)); [apply map_range_NoDup; lia|apply in_range; lia].
  - replace ((j + h) mod (h * 2)) with (j - h).
    2: { replace (j + h) with (j - h + 1 * (h * 2)) by lia. rewrite Z.mod_add by lia. rewrite Z.mod_small; lia. }
    rewrite (fold_upd_miss (fun k => k - h) (fun k _ => tr k)) by (intros Hi; apply in_map_iff in Hi as (k & <- & Hk); apply in_range in Hk; lia).
    replace j with (h + (j - h)) at 1 by lia. apply (fold_upd_hit (fun k => h + k) (fun k _ => tr k)); [apply map_range_NoDup; lia|apply in_range; lia].
Qed.
Print Assumptions C58_rotation.
(** with an odd number of samples the first one is lost *)
Theorem C58_odd_refuted : forall n1 (tr : Z -> Z), 0 < n1 -> Z.odd n1 = true -> (forall k, 0 < k < n1 -> tr k <> tr 0) -> n1 <> 1 -> forall j, 0 <= j < n1 -> rotate Z n1 tr j <> tr 0.
Proof.
  intros n1 tr Hn Ho Hd H1 j Hj. apply Z.odd_spec in Ho as [h ->]. unfold rotate. replace ((2 * h + 1) / 2) with h by (symmetry; rewrite Z.mul_comm, Z.add_comm; rewrite Z.div_add by lia; reflexivity).
  destruct (Z.lt_ge_cases j (h + 1)).
  - replace j with (j + h - h) by lia. rewrite (fold_upd_hit (fun k => k - h) (fun k _ => tr k)); [apply Hd; lia|apply map_range_NoDup; lia|apply in_range; lia].
  - rewrite (fold_upd_miss (fun k => k - h) (fun k _ => tr k)) by (intros Hi; apply in_map_iff in Hi as (k & <- & Hk); apply in_range in Hk; lia).
    destruct (Z.eq_dec j (2 * h)) as [->|N].
    + rewrite (fold_upd_miss (fun k => h + k) (fun k _ => tr k)) by (intros Hi; apply in_map_iff in Hi as (k & E & Hk); apply in_range in Hk; lia). apply Hd. lia.
    + replace j with (h + (j - h)) by lia. rewrite (fold_upd_hit (fun k => h + k) (fun k _ => tr k)); [apply Hd; lia|apply map_range_NoDup; lia|apply in_range; lia].
Qed.
Print Assumptions C58_odd_refuted.
Example C58_nonvacuous : map (rotate Z 6 (fun j => j)) (range 0 6) = [3; 4; 5; 0; 1; 2] /\ map (rotate Z 5 (fun j => j)) (range 0 5) = [2; 3; 4; 1; 4].
Proof. vm_compute. auto. Qed.
