(** Visco-acoustic and visco-elastic modelling: relaxation times (C76), the visco-acoustic update (C77) and the
    visco-elastic update (C78). *)
From Coq Require Import ZArith Reals List Lia Lra Bool FunctionalExtensionality.
From Verif Require Import ListAux FdKernels FdProofs FdOutputProofs Marchenko MarchenkoProofs PropertiesFftLayout PropertiesDft ReadModel ReadModelSpec ReadModelProofs PropertiesReadModel ViscoSpec Visco ViscoProofs.
Import ListNotations.
Local Open Scope Z_scope.

(** ** the arrays of the relaxation times, one mechanism at a time *)
Lemma fold_sim {S V A} (view : S -> V) (step : S -> A -> S) (step' : V -> A -> V) l : (forall s a, In a l -> view (step s a) = step' (view s) a) ->
  forall s, view (fold_left step l s) = fold_left step' l (view s).
Proof. induction l as [|a l IH]; intros H s; [reflexivity|]. cbn [fold_left]. rewrite IH by (intros; apply H; now right). rewrite H by now left. reflexivity. Qed.
Section SLICE.
Variables (nx nz iorder : Z) (b : bnd) (nfw : Z).
Let g := layout nx nz iorder b.
Let n1 := naz g.
Definition slice (k : Z) (m : Z -> R) : Z -> R := fun i => m (i * nfw + k).
Variable k : Z.
Hypothesis Hk : 0 <= k < nfw.
Lemma slice_cell3 x z m : m (cell3 nx nz iorder b nfw x z k) = slice k m (x * n1 + z).
Proof. unfold slice, cell3. fold g n1. f_equal. ring. Qed.
Lemma mechs_slice x z v w m : (forall m, v k m = w (slice k m)) -> slice k (mechs nx nz iorder b nfw x z v m) = upd (slice k m) (x * n1 + z) (w (slice k m)).
Proof.
  intros Hv. unfold mechs. apply (range_view' (slice k) _ (fun s => upd s (x * n1 + z) (w s)) k); [exact Hk| |].
  - intros s i Hi Ni. apply functional_extensionality. intros j. unfold slice. apply upd_other. unfold cell3. fold g n1. intros E. replace (x * n1 * nfw + z * nfw + i) with ((x * n1 + z) * nfw + i) in E by ring. apply cell_eq in E; lia.
  - intros s. apply functional_extensionality. intros j. unfold slice at 1. rewrite Hv. destruct (Z.eq_dec j (x * n1 + z)) as [->|N].
    + transitivity (w (slice k s)); [|symmetry; apply upd_same]. replace ((x * n1 + z) * nfw + k) with (cell3 nx nz iorder b nfw x z k) by (unfold cell3; fold g n1; ring). apply upd_same.
    + transitivity (slice k s j); [|symmetry; apply upd_other; congruence]. unfold slice. apply upd_other. unfold cell3. fold g n1. intros E. replace (x * n1 * nfw + z * nfw + k) with ((x * n1 + z) * nfw + k) in E by ring. apply cell_eq in E; lia.
Qed.
Lemma vcopy_col_slice x0 x1 z0 z1 xs m : slice k (vcopy_col nx nz iorder b nfw x0 x1 z0 z1 xs m) = copy_col n1 x0 x1 z0 z1 xs (slice k m).
Proof. unfold vcopy_col, copy_col. apply fold_sim. intros s x _. apply fold_sim. intros s' z _. apply (mechs_slice x z _ (fun s => s (xs * n1 + z))). intros. apply slice_cell3. Qed.
Lemma vcopy_row_slice x0 x1 z0 z1 zs m : slice k (vcopy_row nx nz iorder b nfw x0 x1 z0 z1 zs m) = copy_row n1 x0 x1 z0 z1 zs (slice k m).
Proof. unfold vcopy_row, copy_row. apply fold_sim. intros s x _. apply fold_sim. intros s' z _. apply (mechs_slice x z _ (fun s => s (x * n1 + zs))). intros. apply slice_cell3. Qed.
Lemma vextend_slice m : slice k (vextend nx nz iorder b nfw m) = extend_p nx nz iorder b (ioPx g) (iePx g) (ioPz g) (iePz g) (slice k m).
Proof.
  unfold vextend, extend_p. cbv zeta. fold g. fold n1.
  assert (O : forall c f f' m, (forall m, slice k (f m) = f' (slice k m)) -> slice k (on c f m) = on c f' (slice k m)) by (intros c f f' m' H; destruct c; cbn [on]; auto).
  rewrite (O _ _ (copy_row n1 (ioPx g) (iePx g) (iePz g - npml b) (iePz g) (iePz g - npml b - 1))) by (intros; apply vcopy_row_slice). f_equal.
  rewrite (O _ _ (copy_row n1 (ioPx g) (iePx g) (ioPz g) (ioPz g + npml b) (ioPz g + npml b))) by (intros; apply vcopy_row_slice). f_equal.
  rewrite (O _ _ (copy_col n1 (iePx g - npml b) (iePx g) (ioPz g) (iePz g) (iePx g - npml b - 1))) by (intros; apply vcopy_col_slice). f_equal.
  apply (O _ _ (copy_col n1 (ioPx g) (ioPx g + npml b) (ioPz g) (iePz g) (ioPx g + npml b))). intros; apply vcopy_col_slice.
Qed.
Variables (fw : Z -> R) (qp qs : Z -> Z -> R).
Let px := startPx nx nz iorder b.
Let pz := startPz nx nz iorder b.
Definition set_all (v : Z -> Z -> R) (m : Z -> R) : Z -> R := fold_left (fun m ix => fold_left (fun m iz => set n1 px pz ix iz (v ix iz) m) (range 0 nz) m) (range 0 nx) m.
Lemma traces_slice elastic t : slice k (t_tss (traces nx nz iorder b nfw fw qp qs elastic t)) = set_all (fun i iz => tss_value fw qp i iz k) (slice k (t_tss t)) /\
  slice k (t_tep (traces nx nz iorder b nfw fw qp qs elastic t)) = set_all (fun i iz => tep_value fw qp i iz k) (slice k (t_tep t)).
Proof.
  unfold traces, set_all. split.
  - apply (fold_sim (fun t => slice k (t_tss t))). intros s i _. cbn [t_tss]. unfold trace_tss. apply fold_sim. intros s' iz _. fold px pz. rewrite (mechs_slice _ _ _ (fun _ => tss_value fw qp i iz k)) by reflexivity. unfold set. now rewrite Z.add_assoc.
  - apply (fold_sim (fun t => slice k (t_tep t))). intros s i _. cbn [t_tep]. unfold trace_tep. apply fold_sim. intros s' iz _. fold px pz. rewrite (mechs_slice _ _ _ (fun _ => tep_value fw qp i iz k)) by reflexivity. unfold set. now rewrite Z.add_assoc.
Qed.
Lemma extended_all v s a c : sizes nx nz iorder b 1 -> position nx nz b a c ->
  extend_p nx nz iorder b (ioPx g) (iePx g) (ioPz g) (iePz g) (set_all v s) ((px + a) * n1 + (pz + c)) = v (nearest nx a) (nearest nz c).
Proof.
  intros H Hp. pose proof (layout_ok nx nz iorder b 1 (fun _ => 0%R) (fun _ => 0%R) (fun _ => 0%R) H) as La. cbv zeta in La. fold g in La. fold px pz in La.
  destruct La as (L1 & L2 & L3 & L4 & L5 & L6 & L7 & L8 & L9 & L10 & L11 & L12 & L13 & L14 & L15 & L16 & L17 & L18 & L19 & L20 & L21 & L22 & L23 & L24 & L25 & L26 & L27 & L28 & L29 & L30).
  assert (Hx : 1 <= nx) by apply H. assert (Hz : 1 <= nz) by apply H. assert (Hn : 0 <= npml b) by apply H.
  pose proof (pad_nonneg b Hn (top b)) as Pt. pose proof (pad_nonneg b Hn (bot b)) as Pu.
  rewrite L13, L14, L15, L16.
  pose proof (at_extended nx nz iorder b 1 (fun _ => 0%R) (fun _ => 0%R) (fun _ => 0%R) px pz _ _ a c H L5 L6 (extend_p_ok nx nz iorder b Hx Hz Hn px pz (set_all v s) L5 L6) Hp) as Q. fold g n1 in Q. rewrite Q. clear Q.
  pose proof (near_in nx a Hx). pose proof (near_in nz c Hz). unfold set_all. fold n1 in L6. rewrite set_rect by lia.
  replace (px + nearest nx a - px) with (nearest nx a) by ring. replace (pz + nearest nz c - pz) with (nearest nz c) by ring. now replace (inside 0 nx 0 nz (nearest nx a) (nearest nz c)) with true by (unfold inside; lia).
Qed.
Lemma outside_all v s x z : sizes nx nz iorder b 1 -> 0 <= z < n1 -> ~ 0 <= x < nax g -> extend_p nx nz iorder b (ioPx g) (iePx g) (ioPz g) (iePz g) (set_all v s) (x * n1 + z) = s (x * n1 + z).
Proof.
  intros H Hz' Hx'. pose proof (layout_ok nx nz iorder b 1 (fun _ => 0%R) (fun _ => 0%R) (fun _ => 0%R) H) as La. cbv zeta in La. fold g in La. fold px pz in La.
  destruct La as (L1 & L2 & L3 & L4 & L5 & L6 & L7 & L8 & L9 & L10 & L11 & L12 & L13 & L14 & L15 & L16 & L17 & L18 & L19 & L20 & L21 & L22 & L23 & L24 & L25 & L26 & L27 & L28 & L29 & L30).
  assert (Hx : 1 <= nx) by apply H. assert (Hz : 1 <= nz) by apply H. assert (Hn : 0 <= npml b) by apply H.
  pose proof (pad_nonneg b Hn (top b)) as Pt. pose proof (pad_nonneg b Hn (bot b)) as Pu. pose proof (pad_nonneg b Hn (lef b)) as Pl. pose proof (pad_nonneg b Hn (rig b)) as Pr.
  rewrite L13, L14, L15, L16. pose proof (extend_p_ok nx nz iorder b Hx Hz Hn px pz (set_all v s) L5 L6 x z Hz') as Q. fold g n1 in Q. rewrite Q. clear Q.
  match goal with |- (if ?c then _ else _) = _ => replace c with false by (unfold inside; lia) end. unfold set_all. fold n1 in L6. rewrite set_rect by lia. match goal with |- (if ?c then _ else _) = _ => replace c with false by (unfold inside; lia) end. reflexivity.
Qed.
End SLICE.
Lemma fold_same_fst {A B} (f : A -> A) (l : list B) s : (forall s, f s = s) -> fold_left (fun s _ => f s) l s = s.
Proof. intros H. induction l as [|x l IH]; [reflexivity|]. cbn [fold_left]. now rewrite H. Qed.
(** tes, with one mechanism *)
Lemma traces_tes nx nz iorder b fw qp qs t : sizes nx nz iorder b 1 ->
  t_tes (traces nx nz iorder b 1 fw qp qs true t) = set_all nx nz iorder b (fun i iz => tau_epsilon_s (qs i iz) (angular (fw 0)) (1 / tss_value fw qp i iz 0)) (t_tes t).
Proof.
  intros H. pose proof (layout_ok nx nz iorder b 1 (fun _ => 0%R) (fun _ => 0%R) (fun _ => 0%R) H) as La. cbv zeta in La. destruct La as (_ & _ & _ & _ & L5 & L6 & _).
  assert (Hn : 0 <= npml b) by apply H. pose proof (pad_nonneg b Hn (top b)) as Pt. pose proof (pad_nonneg b Hn (bot b)) as Pu.
  unfold traces, set_all. apply (fold_sim (fun t => t_tes t)). intros s i _. cbn [t_tes]. unfold trace_tes. apply fold_left_ext. intros m iz Hiz. apply in_range in Hiz. unfold set. f_equal. f_equal. f_equal.
  set (n1 := naz _) in *. set (px := startPx _ _ _ _). set (pz := startPz _ _ _ _) in *. replace ((i + px) * n1 + iz + pz) with (((i + px) * n1 + (iz + pz)) * 1 + 0) by ring.
  change (trace_tss nx nz iorder b 1 fw qp i (t_tss s) (((i + px) * n1 + (iz + pz)) * 1 + 0)) with (slice 1 0 (trace_tss nx nz iorder b 1 fw qp i (t_tss s)) ((i + px) * n1 + (iz + pz))).
  unfold trace_tss. fold px pz.
  rewrite (range_view' (fun m => slice 1 0 m ((i + px) * n1 + (iz + pz))) _ (fun _ => tss_value fw qp i iz 0) iz _ _ _ Hiz); [reflexivity| |].
  - intros m' j Hj Nj. rewrite (mechs_slice nx nz iorder b 1 0 ltac:(lia) _ _ _ (fun _ => tss_value fw qp i j 0)) by reflexivity. apply upd_other. fold n1. lia.
  - intros m'. rewrite (mechs_slice nx nz iorder b 1 0 ltac:(lia) _ _ _ (fun _ => tss_value fw qp i iz 0)) by reflexivity. apply upd_same.
Qed.

(** ** C76 *)
Lemma sigma_pos Q w : (0 < Q -> 0 < w -> 0 < tau_sigma Q w)%R.
Proof.
  intros HQ Hw. unfold tau_sigma, Rdiv. apply Rmult_lt_0_compat; [|now apply Rinv_0_lt_compat]. rewrite !Rmult_1_l.
  assert (0 < / Q)%R by now apply Rinv_0_lt_compat. rewrite Rinv_mult. assert (/ Q < sqrt (1 + / Q * / Q))%R; [|lra].
  assert (P : (0 <= 1 + / Q * / Q)%R) by nra. pose proof (sqrt_sqrt _ P). pose proof (sqrt_pos (1 + / Q * / Q)). nra.
Qed.
(** (w a)^2 + 2 (w a) / Q = 1 *)
Lemma sigma_eq Q w : (0 < Q -> 0 < w -> let x := w * tau_sigma Q w in x * x * Q + 2 * x = Q)%R.
Proof.
  intros HQ Hw x. assert (E : x = (sqrt (1 + / Q * / Q) - / Q)%R) by (unfold x, tau_sigma; unfold Rdiv; rewrite !Rmult_1_l, Rinv_mult; field; lra).
  pose proof (Rinv_0_lt_compat Q HQ) as HI. assert (H : (0 <= 1 + / Q * / Q)%R) by nra. pose proof (sqrt_sqrt _ H) as S. set (r := sqrt _) in *.
  rewrite E. replace ((r - / Q) * (r - / Q) * Q + 2 * (r - / Q))%R with (Q * (r * r) - / Q)%R by (field; lra). rewrite S. field. lra.
Qed.
Lemma below_1 Q x : (0 < Q -> 0 < x -> x * x * Q + 2 * x = Q -> x < 1)%R.
Proof. intros HQ Hx E. destruct (Rlt_or_le x 1) as [|L]; [assumption|exfalso]. assert (1 <= x * x)%R by nra. assert (Q <= x * x * Q)%R by nra. lra. Qed.
Lemma quality_eq te ts w : quality te ts w = ((1 + w * w * te * ts) / (w * (te - ts)))%R.
Proof.
  assert (0 < 1 + w * w * ts * ts)%R by (replace (1 + w * w * ts * ts)%R with (1 + (w * ts) * (w * ts))%R by ring; pose proof (Rle_0_sqr (w * ts)); unfold Rsqr in *; lra).
  unfold quality, storage, loss, Rdiv. set (D := (1 + w * w * ts * ts)%R) in *. destruct (Req_dec (w * (te - ts)) 0) as [E|N].
  - rewrite E. rewrite Rmult_0_l, Rinv_0. ring.
  - set (u := (w * (te - ts))%R) in *. clearbody u. clearbody D. field. lra.
Qed.
Lemma quality_p Q w : (0 < Q -> 0 < w -> let ts := tau_sigma Q w in let te := tau_epsilon w ts in
  0 < ts < te /\ quality te ts w = Q /\ forall w', 0 < w' -> Q <= quality te ts w')%R.
Proof.
  intros HQ Hw ts te. pose proof (sigma_pos Q w HQ Hw) as Hp. fold ts in Hp. pose proof (sigma_eq Q w HQ Hw) as E. cbv zeta in E. fold ts in E. set (x := (w * ts)%R) in *.
  assert (Hx : (0 < x)%R) by (unfold x; now apply Rmult_lt_0_compat). assert (Ets : ts = (x / w)%R) by (unfold x; field; lra). assert (Ete : te = (1 / (w * x))%R) by (unfold te, tau_epsilon, x; field; lra).
  assert (X1 : (x < 1)%R) by (apply (below_1 Q x HQ Hx E)). assert (D : (te - ts = (1 - x * x) / (w * x))%R) by (rewrite Ete, Ets; field; lra).
  assert (P : (te * ts = 1 / (w * w))%R) by (rewrite Ete, Ets; field; lra).
  assert (EQ : (Q = 2 * x / (1 - x * x))%R) by (apply Rmult_eq_reg_r with (1 - x * x)%R; [field_simplify; nra|nra]).
  assert (QE : forall w', (0 < w')%R -> quality te ts w' = ((w * w + w' * w') * x / (w * w' * (1 - x * x)))%R).
  { intros w' Hw'. rewrite quality_eq. rewrite (Rmult_assoc _ te ts), P, D. field. conjs; nra || lra. }
  conjs.
  - exact Hp.
  - assert (0 < (1 - x * x) / (w * x))%R; [|lra]. apply Rdiv_lt_0_compat; nra.
  - rewrite QE by exact Hw. rewrite EQ. field. split; nra.
  - intros w' Hw'. rewrite QE by exact Hw'. rewrite EQ. unfold Rdiv at 2. apply Rmult_le_reg_r with (w * w' * (1 - x * x))%R; [apply Rmult_lt_0_compat; nra|].
    replace ((w * w + w' * w') * x * / (w * w' * (1 - x * x)) * (w * w' * (1 - x * x)))%R with ((w * w + w' * w') * x)%R by (field; conjs; nra || lra).
    replace (2 * x / (1 - x * x) * (w * w' * (1 - x * x)))%R with (2 * w * w' * x)%R by (field; nra). pose proof (Rle_0_sqr (w - w')). unfold Rsqr in *. nra.
Qed.
Lemma quality_s Q w ts : (0 < w -> 0 < ts -> w * ts < Q -> let te := tau_epsilon_s Q w ts in ts < te /\ quality te ts w = Q)%R.
Proof.
  intros Hw Ht HQ te. assert (D : (te - ts = (1 + w * ts * (w * ts)) / (w * (Q - w * ts)))%R) by (unfold te, tau_epsilon_s; field; nra).
  assert (S : (1 + w * w * te * ts = Q * (1 + w * ts * (w * ts)) / (Q - w * ts))%R) by (unfold te, tau_epsilon_s; field; nra).
  split.
  - assert (0 < (1 + w * ts * (w * ts)) / (w * (Q - w * ts)))%R; [|lra]. apply Rdiv_lt_0_compat; [pose proof (Rle_0_sqr (w * ts)); unfold Rsqr in *; lra|]. apply Rmult_lt_0_compat; lra.
  - rewrite quality_eq, S, D. field. pose proof (Rle_0_sqr (w * ts)). unfold Rsqr in *. conjs; nra || lra.
Qed.
Lemma sigma_lt_1 Q w : (0 < Q -> 0 < w -> w * tau_sigma Q w < 1)%R.
Proof. intros HQ Hw. pose proof (sigma_pos Q w HQ Hw). pose proof (sigma_eq Q w HQ Hw) as E. cbv zeta in E. apply (below_1 Q _ HQ (Rmult_lt_0_compat _ _ Hw H) E). Qed.

(** At every position of the model and its absorbing sides and for every mechanism, the relaxation times give the
    requested quality factor of the nearest cell at the requested frequency, and a larger one at all others. *)
Theorem C76_quality_factor nx nz iorder b nfw fw qp qs elastic t : sizes nx nz iorder b 1 ->
  let g := layout nx nz iorder b in let r := relaxation_times nx nz iorder b nfw fw qp qs elastic t in
  forall a c k, position nx nz b a c -> 0 <= k < nfw -> let i := nearest nx a in let j := nearest nz c in
  (0 < qp i j)%R -> (0 < fw k)%R ->
  let cell := ((ioPx g + pad b (lef b) + a) * naz g + (ioPz g + pad b (top b) + c)) * nfw + k in
  let ts := (/ t_tss r cell)%R in let te := t_tep r cell in let w := (2 * PI * fw k)%R in
  (0 < ts < te)%R /\ quality te ts w = qp i j /\ forall w', (0 < w')%R -> (qp i j <= quality te ts w')%R.
Proof.
  intros H g r a c k Hp Hk i j HQ Hf cell ts te w.
  destruct (traces_slice nx nz iorder b nfw k Hk fw qp qs elastic t) as [S1 S2].
  assert (Hw : (0 < w)%R) by (unfold w; pose proof PI_RGT_0; nra).
  assert (E1 : t_tss r cell = (1 / tau_sigma (qp i j) w)%R).
  { unfold r, relaxation_times. cbn [t_tss]. change (slice nfw k (vextend nx nz iorder b nfw (t_tss (traces nx nz iorder b nfw fw qp qs elastic t))) ((ioPx g + pad b (lef b) + a) * naz g + (ioPz g + pad b (top b) + c)) = (1 / tau_sigma (qp i j) w)%R).
    rewrite vextend_slice by exact Hk. rewrite S1. apply (extended_all nx nz iorder b fw qp qs (fun i iz => tss_value fw qp i iz k)); assumption. }
  assert (E2 : te = tau_epsilon w (tau_sigma (qp i j) w)).
  { unfold te, r, relaxation_times. cbn [t_tep]. change (slice nfw k (vextend nx nz iorder b nfw (t_tep (traces nx nz iorder b nfw fw qp qs elastic t))) ((ioPx g + pad b (lef b) + a) * naz g + (ioPz g + pad b (top b) + c)) = tau_epsilon w (tau_sigma (qp i j) w)).
    rewrite vextend_slice by exact Hk. rewrite S2. apply (extended_all nx nz iorder b fw qp qs (fun i iz => tep_value fw qp i iz k)); assumption. }
  assert (E3 : ts = tau_sigma (qp i j) w) by (unfold ts; rewrite E1; unfold Rdiv; rewrite Rmult_1_l, Rinv_inv; reflexivity).
  rewrite E3, E2. apply quality_p; assumption.
Qed.
Print Assumptions C76_quality_factor.
(** The shear relaxation time (one frequency) gives the quality factor for shear waves, when this is at least 1. *)
Theorem C76_shear_quality_factor nx nz iorder b fw qp qs t : sizes nx nz iorder b 1 ->
  let g := layout nx nz iorder b in let r := relaxation_times nx nz iorder b 1 fw qp qs true t in
  forall a c, position nx nz b a c -> let i := nearest nx a in let j := nearest nz c in
  (0 < qp i j)%R -> (1 <= qs i j)%R -> (0 < fw 0%Z)%R ->
  let cell := (ioPx g + pad b (lef b) + a) * naz g + (ioPz g + pad b (top b) + c) in
  let ts := (/ t_tss r cell)%R in let te := t_tes r cell in
  (ts < te)%R /\ quality te ts (2 * PI * fw 0%Z) = qs i j.
Proof.
  intros H g r a c Hp i j HQ HS Hf cell ts te. set (w := (2 * PI * fw 0%Z)%R).
  destruct (traces_slice nx nz iorder b 1 0 ltac:(lia) fw qp qs true t) as [S1 _].
  assert (Hw : (0 < w)%R) by (unfold w; pose proof PI_RGT_0; nra).
  assert (E1 : t_tss r cell = (1 / tau_sigma (qp i j) w)%R).
  { unfold r, relaxation_times. cbn [t_tss]. replace cell with (cell * 1 + 0) by ring. change (slice 1 0 (vextend nx nz iorder b 1 (t_tss (traces nx nz iorder b 1 fw qp qs true t))) cell = (1 / tau_sigma (qp i j) w)%R).
    rewrite vextend_slice by lia. rewrite S1. apply (extended_all nx nz iorder b fw qp qs (fun i iz => tss_value fw qp i iz 0)); assumption. }
  assert (E2 : te = tau_epsilon_s (qs i j) w (tau_sigma (qp i j) w)).
  { unfold te, r, relaxation_times. cbn [t_tes on]. rewrite traces_tes by exact H. unfold cell. pose proof (extended_all nx nz iorder b fw qp qs (fun i iz => tau_epsilon_s (qs i iz) (angular (fw 0)) (1 / tss_value fw qp i iz 0)) (t_tes t) a c H Hp) as Q. etransitivity; [exact Q|]. cbv beta. fold i j. unfold tss_value. change (angular (fw 0)) with w. f_equal. unfold Rdiv. rewrite !Rmult_1_l, Rinv_inv. reflexivity. }
  assert (E3 : ts = tau_sigma (qp i j) w) by (unfold ts; rewrite E1; unfold Rdiv; rewrite Rmult_1_l, Rinv_inv; reflexivity).
  rewrite E3, E2. apply quality_s; [exact Hw|apply sigma_pos; assumption|]. pose proof (sigma_lt_1 (qp i j) w HQ Hw). lra.
Qed.
Print Assumptions C76_shear_quality_factor.
(** With smaller shear quality factors the relaxation time can be negative. *)
Theorem C76_small_shear_refuted : exists Q Qs, (0 < Q /\ 0 < Qs /\ tau_epsilon_s Qs 1 (tau_sigma Q 1) < 0)%R.
Proof.
  exists 1%R, (1/4)%R. conjs; [lra|lra|]. pose proof (sigma_eq 1 1 ltac:(lra) ltac:(lra)) as E. pose proof (sigma_pos 1 1 ltac:(lra) ltac:(lra)) as P. cbv zeta in E. set (x := tau_sigma 1 1) in *. assert (1/4 < x)%R by nra. unfold tau_epsilon_s.
  replace ((1 + 1 * (1 / 4) * x) / (1 * (1 / 4) - 1 * 1 * x))%R with (- ((1 + x / 4) / (x - 1 / 4)))%R by (field; split; lra). assert (0 < (1 + x / 4) / (x - 1 / 4))%R; [|lra]. apply Rdiv_lt_0_compat; lra.
Qed.
Print Assumptions C76_small_shear_refuted.
(** In the visco-acoustic scheme the arrays have nfw * nax * naz cells; nothing outside is written. *)
Theorem C76_in_bounds nx nz iorder b nfw fw qp qs t x : sizes nx nz iorder b 1 -> 1 <= nfw ->
  let g := layout nx nz iorder b in let r := relaxation_times nx nz iorder b nfw fw qp qs false t in
  ~ 0 <= x < nfw * (nax g * naz g) -> t_tss r x = t_tss t x /\ t_tep r x = t_tep t x /\ t_tes r = t_tes t.
Proof.
  intros H Hn g r Ho. pose proof (layout_ok nx nz iorder b 1 (fun _ => 0%R) (fun _ => 0%R) (fun _ => 0%R) H) as La. cbv zeta in La. fold g in La. destruct La as (_ & _ & _ & _ & L5 & L6 & _).
  assert (Hz : 1 <= nz) by apply H. assert (Hn' : 0 <= npml b) by apply H. pose proof (pad_nonneg b Hn' (top b)) as Pt. pose proof (pad_nonneg b Hn' (bot b)) as Pu.
  assert (N1 : 0 < naz g) by lia. clear L5 L6.
  set (k := x mod nfw). set (y := x / nfw). assert (Ex : x = y * nfw + k) by (unfold y, k; rewrite Z.mul_comm; apply Z.div_mod; lia). assert (Hk : 0 <= k < nfw) by (apply Z.mod_pos_bound; lia).
  set (a := y / naz g). set (c := y mod naz g). assert (Ey : y = a * naz g + c) by (unfold a, c; rewrite Z.mul_comm; apply Z.div_mod; lia). assert (Hc : 0 <= c < naz g) by (apply Z.mod_pos_bound; lia).
  assert (Ha : ~ 0 <= a < nax g) by (intros A; apply Ho; assert (0 <= y < nax g * naz g) by nia; nia).
  destruct (traces_slice nx nz iorder b nfw k Hk fw qp qs false t) as [S1 S2].
  unfold r, relaxation_times. cbn [t_tss t_tep t_tes on]. conjs.
  - rewrite Ex. change (slice nfw k (vextend nx nz iorder b nfw (t_tss (traces nx nz iorder b nfw fw qp qs false t))) y = slice nfw k (t_tss t) y). rewrite vextend_slice by exact Hk. rewrite S1, Ey. apply (outside_all nx nz iorder b fw qp qs); assumption.
  - rewrite Ex. change (slice nfw k (vextend nx nz iorder b nfw (t_tep (traces nx nz iorder b nfw fw qp qs false t))) y = slice nfw k (t_tep t) y). rewrite vextend_slice by exact Hk. rewrite S2, Ey. apply (outside_all nx nz iorder b fw qp qs); assumption.
  - unfold traces. apply (fold_same (fun t => t_tes t)). reflexivity.
Qed.
Print Assumptions C76_in_bounds.
(** In the visco-elastic scheme the arrays have nax * naz cells; with more than one frequency cells beyond their ends
    are written. *)
Theorem C76_elastic_frequencies_refuted nx nz iorder b nfw fw qp qs t : sizes nx nz iorder b 1 -> 2 <= nfw -> 4 <= nx ->
  let g := layout nx nz iorder b in let r := relaxation_times nx nz iorder b nfw fw qp qs true t in
  exists x, nax g * naz g <= x /\ t_tss r x = (1 / tau_sigma (qp (nx - 1)%Z (nz - 1)%Z) (2 * PI * fw 0%Z))%R.
Proof.
  intros H Hn Hx g r. set (px := ioPx g + pad b (lef b)). set (pz := ioPz g + pad b (top b)). exists (((px + (nx - 1 + pad b (rig b))) * naz g + (pz + (nz - 1))) * nfw + 0).
  assert (Hz : 1 <= nz) by apply H. assert (Hn' : 0 <= npml b) by apply H. pose proof (pad_nonneg b Hn' (top b)) as Pt. pose proof (pad_nonneg b Hn' (bot b)) as Pu. pose proof (pad_nonneg b Hn' (lef b)) as Pl. pose proof (pad_nonneg b Hn' (rig b)) as Pr.
  destruct (traces_slice nx nz iorder b nfw 0 ltac:(lia) fw qp qs true t) as [S1 _]. split.
  - destruct H as (_ & _ & (Ho & He) & _ & _). apply Z.even_spec in He. destruct He as [h He]. assert (Hh : iorder / 2 = h) by (rewrite He, Z.mul_comm, Z.div_mul; lia).
    assert (A : nax g <= 2 * (px + (nx - 1 + pad b (rig b)))) by (unfold px, g; cbn [layout nax ioPx]; lia). assert (B : 0 <= pz + (nz - 1)) by (unfold pz, g; cbn [layout ioPz]; lia). assert (C : 0 < naz g) by (unfold g; cbn [layout naz]; lia).
    assert (D : 0 <= px + (nx - 1 + pad b (rig b))) by (unfold px, g; cbn [layout ioPx]; lia). set (D' := px + (nx - 1 + pad b (rig b))) in *. set (B' := pz + (nz - 1)) in *. assert (nax g * naz g <= 2 * D' * naz g) by (apply Z.mul_le_mono_nonneg_r; lia). assert (0 <= D' * naz g) by nia. nia.
  - unfold r, relaxation_times. cbn [t_tss]. change (slice nfw 0 (vextend nx nz iorder b nfw (t_tss (traces nx nz iorder b nfw fw qp qs true t))) ((px + (nx - 1 + pad b (rig b))) * naz g + (pz + (nz - 1))) = (1 / tau_sigma (qp (nx - 1)%Z (nz - 1)%Z) (2 * PI * fw 0%Z))%R).
    rewrite vextend_slice by lia. rewrite S1. etransitivity; [apply (extended_all nx nz iorder b fw qp qs (fun i iz => tss_value fw qp i iz 0)); [exact H|split; lia]|]. cbv beta. replace (nearest nx (nx - 1 + pad b (rig b))) with (nx - 1) by (unfold nearest; lia). replace (nearest nz (nz - 1)) with (nz - 1) by (unfold nearest; lia). reflexivity.
Qed.
Print Assumptions C76_elastic_frequencies_refuted.
Example C76_nonvacuous : sizes 4 3 4 (mk_bnd 1 4 4 4 5) 1 /\ position 4 3 (mk_bnd 1 4 4 4 5) (-5) 7.
Proof. unfold sizes, position, pad, absorbing. cbn. conjs; try lia; try reflexivity. lra. Qed.

(** ** C77 *)
(** The pressure of every grid point after any number of visco-acoustic steps: the superposition of the responses of
    one standard linear solid per frequency to the divergence of the velocities of all steps, whatever these are. *)
Theorem C77_pressure g dt nfw l2m tss tep vx vz source n p q x z : 0 <= ioPz g -> iePz g <= naz g -> 0 <= nfw ->
  ioPx g <= x < iePx g -> ioPz g <= z < iePz g ->
  let cell := x * naz g + z in let s := fun k => tss (cell * nfw + Z.of_nat k) in let T := fun k => (s k * tep (cell * nfw + Z.of_nat k)%Z)%R in
  (forall k, (k < Z.to_nat nfw)%nat -> (1 + s k * dt / 2 <> 0)%R) -> (forall k, (k < Z.to_nat nfw)%nat -> q (cell * nfw + Z.of_nat k) = 0%R) ->
  let divergence := fun m => (ahead (fun x => vx m (x * naz g + z)%Z) x + ahead (fun z => vz m (x * naz g + z)%Z) z)%R in
  fst (acoustic_run g dt nfw l2m tss tep vx vz source n (p, q)) cell =
  (p cell + upto n (fun m => source m cell) - upto (Z.to_nat nfw) (fun k => response (relaxation (l2m cell) (T k) (s k) dt) divergence n))%R.
Proof.
  intros H1 H2 Hn Hx Hz cell s T Hs Hq d.
  assert (K : forall k, 0 <= k < nfw -> (Z.to_nat k < Z.to_nat nfw)%nat /\ Z.of_nat (Z.to_nat k) = k) by lia.
  pose proof (acoustic_run_ok g dt nfw l2m tss tep (conj H1 H2) vx vz source n (p, q) x z (conj Hx Hz) Hn) as R. cbv zeta in R.
  specialize (R ltac:(intros k Hk; destruct (K k Hk) as [K1 K2]; specialize (Hs _ K1); unfold s in Hs; rewrite K2 in Hs; exact Hs)).
  specialize (R ltac:(intros k Hk; destruct (K k Hk) as [K1 K2]; specialize (Hq _ K1); rewrite K2 in Hq; exact Hq)).
  apply (f_equal fst) in R. unfold view in R. cbn [fst snd] in R. fold cell in R. rewrite R. f_equal. apply upto_ext. intros k Hk. apply response_ext; [reflexivity|]. intros m. unfold d. now rewrite ahead_x, ahead_z.
Qed.
Print Assumptions C77_pressure.
(** Nothing else is written: the pressure outside of the grid and the memory variables of other cells are kept. *)
Theorem C77_frame g dt nfw l2m tss tep vx vz p q : let r := viscoacoustic g dt nfw l2m tss tep vx vz (p, q) in
  (forall i, (forall x z, ioPx g <= x < iePx g -> ioPz g <= z < iePz g -> i <> x * naz g + z) -> fst r i = p i) /\
  (forall i, (forall x z k, ioPx g <= x < iePx g -> ioPz g <= z < iePz g -> 0 <= k < nfw -> i <> (x * naz g + z) * nfw + k) -> snd r i = q i).
Proof.
  cbv zeta. destruct (acoustic_outside g dt nfw l2m tss tep vx vz (p, q)) as [A B]. split; intros i Hi.
  - apply A. intros x z [Hx Hz]. apply Hi; assumption.
  - apply B. intros x z k [Hx Hz] Hk. apply Hi; assumption.
Qed.
Print Assumptions C77_frame.
(** The response fades monotonically from the unrelaxed modulus to the relaxed one, for times steps up to twice the relaxation time *)
Lemma decay_range s dt : (0 < s * dt -> Rabs (decay s dt) < 1)%R.
Proof. intros H. unfold decay. assert (0 < 1 + s * dt / 2)%R by lra. apply Rabs_def1; apply Rmult_lt_reg_r with (1 + s * dt / 2)%R; try assumption; unfold Rdiv; rewrite ?Rmult_assoc, Rinv_l by lra; lra. Qed.
Theorem C77_relaxes M T s dt : (0 < s * dt)%R -> Un_cv (relaxation M T s dt) M.
Proof.
  intros H e He. pose proof (decay_range s dt H) as D. destruct (pow_lt_1_zero (decay s dt) D (e / (Rabs (M * (T - 1)) + 1)))%R as [N HN]; [apply Rdiv_lt_0_compat; [exact He|pose proof (Rabs_pos (M * (T - 1))); lra]|].
  exists (S N). intros n Hn. unfold R_dist, relaxation. replace (M * (1 + (T - 1) * decay s dt ^ (n - 1) / (1 + s * dt / 2)) - M)%R with (M * (T - 1) * (decay s dt ^ (n - 1)) * / (1 + s * dt / 2))%R by (field; lra).
  rewrite !Rabs_mult. specialize (HN (n - 1)%nat ltac:(lia)). set (y := Rabs (decay s dt ^ (n - 1))) in *. rewrite <- Rabs_mult. pose proof (Rabs_pos (M * (T - 1))) as P. set (A := Rabs (M * (T - 1))) in *. clearbody A.
  assert (B : (0 < / (1 + s * dt / 2) <= 1)%R). { split; [apply Rinv_0_lt_compat; lra|]. rewrite <- Rinv_1. apply Rinv_le_contravar; lra. }
  rewrite (Rabs_pos_eq (/ (1 + s * dt / 2))) by lra. assert (Y : (0 <= y)%R) by apply Rabs_pos.
  apply Rle_lt_trans with (A * y)%R; [assert (0 <= A * y)%R by (apply Rmult_le_pos; assumption); nra|].
  apply Rle_lt_trans with ((A + 1) * y)%R; [nra|]. replace e with ((A + 1) * (e / (A + 1)))%R by (field; lra). apply Rmult_lt_compat_l; lra.
Qed.
Print Assumptions C77_relaxes.
Theorem C77_fades M T s dt j : (0 < M -> 1 < T -> 0 < s * dt < 2 -> (1 <= j)%nat -> M < relaxation M T s dt (S j) < relaxation M T s dt j)%R.
Proof.
  intros HM HT Hs Hj. unfold relaxation. replace (S j - 1)%nat with (S (j - 1)) by lia. cbn [pow].
  assert (D : (0 < decay s dt < 1)%R). { pose proof (decay_range s dt ltac:(lra)) as D. split; [unfold decay; apply Rdiv_lt_0_compat; lra|]. apply Rabs_def2 in D. lra. }
  pose proof (pow_lt (decay s dt) (j - 1) ltac:(lra)) as P. set (y := (decay s dt ^ (j - 1))%R) in *. set (r := decay s dt) in *. set (i := (/ (1 + s * dt / 2))%R). assert (I : (0 < i)%R) by (apply Rinv_0_lt_compat; lra). change (M < M * (1 + (T - 1) * (r * y) * i) < M * (1 + (T - 1) * y * i))%R. clearbody y r i.
  assert (A : (0 < (T - 1) * (r * y) * i)%R) by (repeat apply Rmult_lt_0_compat; lra). assert (B : ((T - 1) * (r * y) * i < (T - 1) * y * i)%R). { apply Rmult_lt_compat_r; [exact I|]. apply Rmult_lt_compat_l; [lra|]. nra. }
  set (u := ((T - 1) * (r * y) * i)%R) in *. set (v := ((T - 1) * y * i)%R) in *. clearbody u v. split; nra.
Qed.
Print Assumptions C77_fades.
(** More than one frequency: every mechanism responds with the whole modulus, so that the relaxed modulus is nfw
    times the one of the model. *)
Lemma upto_const n c : upto n (fun _ => c) = (INR n * c)%R.
Proof. induction n as [|n IH]; [cbn; ring|]. cbn [upto]. rewrite IH, S_INR. ring. Qed.
Theorem C77_frequencies_refuted nfw M T s dt : (0 < s * dt)%R -> Un_cv (fun j => upto nfw (fun _ => relaxation M T s dt j)) (INR nfw * M).
Proof.
  intros H. pose proof (C77_relaxes M T s dt H) as C. assert (E : (fun j => upto nfw (fun _ => relaxation M T s dt j)) = (fun j => INR nfw * relaxation M T s dt j)%R) by (apply functional_extensionality; intros; apply upto_const). rewrite E.
  apply (CV_mult (fun _ => INR nfw) (relaxation M T s dt)); [|exact C]. intros e He. exists O. intros n _. unfold R_dist. rewrite Rminus_diag_eq by reflexivity. rewrite Rabs_R0. exact He.
Qed.
Print Assumptions C77_frequencies_refuted.
(** One step over a grid of one point with two frequencies: the pressure is the one of twice the modulus. *)
Example C77_nonvacuous : let g := layout 1 1 4 (mk_bnd 3 3 3 3 0) in
  fst (acoustic_run g 1 2 (fun _ => 1%R) (fun _ => 1%R) (fun _ => 3%R) (fun _ i => if i =? 2 * naz g + 1 then 1%R else 0%R) (fun _ _ => 0%R) (fun _ _ => 0%R) 1 (fun _ => 0%R, fun _ => 0%R)) (1 * naz g + 1) = (- (2 * (7 / 3 * (9 / 8))))%R.
Proof.
  cbv zeta. rewrite C77_pressure; [|cbn; lia|cbn; lia|lia|cbn; lia|cbn; lia|intros; lra|reflexivity].
  unfold response, relaxation, decay, ahead. cbn [upto Z.to_nat Pos.to_nat Pos.iter_op Nat.sub pow]. cbn [layout naz].
  repeat match goal with |- context [if ?c then _ else _] => let v := eval vm_compute in c in change c with v end.
  cbn. change (Pos.to_nat 2) with 2%nat. cbn [upto].
  field.
Qed.

(** ** C78 *)
(** The stresses of every grid point after any number of visco-elastic steps: responses of standard linear solids with
    the modulus l2m for the divergence, and the modulus mul for shear. *)
Theorem C78_stresses g dt l2m mul tss tep tes junk vx vz sxx szz sxz n s0 x z :
  0 <= ioPz g -> iePz g <= naz g -> 0 <= ioTz g -> ieTz g <= naz g ->
  ioPx g <= x < iePx g -> ioPz g <= z < iePz g -> let cell := x * naz g + z in let s := tss cell in
  dt <> 0%R -> (1 + s * dt / 2 <> 0)%R -> snd (xx s0) cell = 0%R -> snd (zz s0) cell = 0%R -> snd (xz s0) cell = 0%R ->
  let P := relaxation (l2m cell) (tep cell * s) s dt in let S := relaxation (mul cell) (tes cell * s) s dt in
  let dxx := fun m => ahead (fun x => vx m (x * naz g + z)) x in let dzz := fun m => ahead (fun z => vz m (x * naz g + z)) z in
  let dxz := fun m => (behind (fun z => vx m (x * naz g + z)%Z) z + behind (fun x => vz m (x * naz g + z)%Z) x)%R in
  let r := elastic_run g dt l2m mul tss tep tes junk vx vz sxx szz sxz n s0 in
  fst (xx r) cell = (fst (xx s0) cell + upto n (fun m => sxx m cell) - (response P dxx n + response (fun j => P j - 2 * S j) dzz n))%R /\
  fst (zz r) cell = (fst (zz s0) cell + upto n (fun m => szz m cell) - (response P dzz n + response (fun j => P j - 2 * S j) dxx n))%R /\
  (ioTx g <= x -> ioTz g <= z < ieTz g -> fst (xz r) cell = (fst (xz s0) cell + upto n (fun m => sxz m cell) - response S dxz n)%R).
Proof.
  intros H1 H2 H3 H4 Hx Hz cell s Ht Hs Q1 Q2 Q3 P S dxx dzz dxz r.
  assert (Hg : 0 <= ioPz g /\ iePz g <= naz g /\ 0 <= ioTz g /\ ieTz g <= naz g) by tauto.
  set (run := fun n => elastic_run g dt l2m mul tss tep tes junk vx vz sxx szz sxz n s0).
  pose proof (fun m => elastic_step g dt l2m mul tss tep tes Hg x z Hs Ht (junk m) (vx m) (vz m) (run m) (conj Hx Hz)) as St. cbv zeta in St.
  conjs.
  - pose proof (normal_iter g dt l2m mul tss tep tes x z Hs dxx dzz (fun m => sxx m cell) (fun n => view1 g x z (xx (run n)))) as N. specialize (N Q1).
    assert (N' := N (fun m => ltac:(cbn [run elastic_run xx]; unfold view1 at 1; cbn [fst snd]; destruct (St m) as (A & _ & _); unfold run in A; unfold dxx, dzz; rewrite <- ahead_x, <- ahead_z; cbv zeta; fold (run m) in A |- *; rewrite <- A; reflexivity)) n). apply (f_equal fst) in N'. exact N'.
  - pose proof (normal_iter g dt l2m mul tss tep tes x z Hs dzz dxx (fun m => szz m cell) (fun n => view1 g x z (zz (run n)))) as N. specialize (N Q2).
    assert (N' := N (fun m => ltac:(cbn [run elastic_run zz]; unfold view1 at 1; cbn [fst snd]; destruct (St m) as (_ & A & _); unfold run in A; unfold dxx, dzz; rewrite <- ahead_x, <- ahead_z; cbv zeta; fold (run m) in A |- *; rewrite <- A; reflexivity)) n). apply (f_equal fst) in N'. exact N'.
  - intros T1 T2. assert (Sh : in_shear g x z) by (split; [lia|split; lia]).
    pose proof (shear_iter g dt mul tss tes x z Hs dxz (fun m => sxz m cell) (fun n => view1 g x z (xz (run n)))) as N. specialize (N Q3).
    assert (N' := N (fun m => ltac:(cbn [run elastic_run xz]; unfold view1 at 1; cbn [fst snd]; destruct (St m) as (_ & _ & A); specialize (A Sh); unfold run in A; unfold dxz; rewrite <- behind_x, <- behind_z; cbv zeta; fold (run m) in A |- *; rewrite <- A; reflexivity)) n). apply (f_equal fst) in N'. exact N'.
Qed.
Print Assumptions C78_stresses.
(** Nothing else is written: the normal stresses outside of the pressure cells, the shear stress outside of its own,
    of which the last column is left out. *)
Lemma normal_out g l2m tss tep t x d1 d2 sm i : (forall z, ioPz g <= z < iePz g -> i <> x * naz g + z) -> fst (normal g l2m tss tep t x d1 d2 sm) i = fst sm i /\ snd (normal g l2m tss tep t x d1 d2 sm) i = snd sm i.
Proof.
  intros H. unfold normal. cbv zeta. split.
  - rewrite (fold_same (fun sm : (Z -> R) * (Z -> R) => fst sm i)); [|intros s z Hz; apply in_range in Hz; cbn [fst]; apply upd_other; now apply H]. cbn [fst]. apply (fold_same (fun s : Z -> R => s i)). intros s z Hz. apply in_range in Hz. apply upd_other. now apply H.
  - rewrite (fold_same (fun sm : (Z -> R) * (Z -> R) => snd sm i)); [reflexivity|]. intros s z Hz. apply in_range in Hz. cbn [snd]. apply upd_other. now apply H.
Qed.
Lemma shear_out g t x d sm i : (ioTx g <= x -> forall z, ioTz g <= z < ieTz g -> i <> x * naz g + z) -> fst (shear g t x d sm) i = fst sm i /\ snd (shear g t x d sm) i = snd sm i.
Proof.
  intros H. unfold shear. destruct (Z.leb_spec (ioTx g) x) as [L|L]; [|split; reflexivity]. split.
  - apply (fold_same (fun sm : (Z -> R) * (Z -> R) => fst sm i)). intros s z Hz. apply in_range in Hz. cbn [fst]. apply upd_other. now apply H.
  - apply (fold_same (fun sm : (Z -> R) * (Z -> R) => snd sm i)). intros s z Hz. apply in_range in Hz. cbn [snd]. apply upd_other. now apply H.
Qed.
Theorem C78_frame g dt l2m mul tss tep tes junk vx vz s : let r := viscoelastic g dt l2m mul tss tep tes junk vx vz s in
  (forall i, (forall x z, ioPx g <= x < iePx g -> ioPz g <= z < iePz g -> i <> x * naz g + z) ->
     fst (xx r) i = fst (xx s) i /\ snd (xx r) i = snd (xx s) i /\ fst (zz r) i = fst (zz s) i /\ snd (zz r) i = snd (zz s) i) /\
  (forall i, (forall x z, ioPx g <= x < iePx g -> ioTx g <= x -> ioTz g <= z < ieTz g -> i <> x * naz g + z) -> fst (xz r) i = fst (xz s) i /\ snd (xz r) i = snd (xz s) i).
Proof.
  cbv zeta. unfold viscoelastic. split; intros i Hi.
  - conjs; [apply (fold_same (fun st : stresses * temps => fst (xx (fst st)) i))|apply (fold_same (fun st : stresses * temps => snd (xx (fst st)) i))|apply (fold_same (fun st : stresses * temps => fst (zz (fst st)) i))|apply (fold_same (fun st : stresses * temps => snd (zz (fst st)) i))];
      intros st x Hx; apply in_range in Hx; cbn [fst xx zz]; apply normal_out; intros z Hz; apply Hi; assumption.
  - conjs; [apply (fold_same (fun st : stresses * temps => fst (xz (fst st)) i))|apply (fold_same (fun st : stresses * temps => snd (xz (fst st)) i))];
      intros st x Hx; apply in_range in Hx; cbn [fst xz]; apply shear_out; intros T z Hz; apply Hi; assumption.
Qed.
Print Assumptions C78_frame.
(** The shear stresses of the last column are never updated ... *)
Theorem C78_last_column_refuted nx nz iorder b dt l2m mul tss tep tes junk vx vz s z : sizes nx nz iorder b 1 ->
  let g := layout nx nz iorder b in ioTz g <= z < ieTz g ->
  let x := ieTx g - 1 in ioTx g <= x < ieTx g /\ fst (xz (viscoelastic g dt l2m mul tss tep tes junk vx vz s)) (x * naz g + z) = fst (xz s) (x * naz g + z).
Proof.
  intros H g Hz x. assert (Hx : 1 <= nx) by apply H. assert (Hn : 0 <= npml b) by apply H. pose proof (pad_nonneg b Hn (top b)) as Pt. pose proof (pad_nonneg b Hn (bot b)) as Pu. pose proof (pad_nonneg b Hn (lef b)) as Pl. pose proof (pad_nonneg b Hn (rig b)) as Pr.
  assert (Ho : 2 <= iorder) by apply H.
  split; [unfold x, g; cbn [layout ioTx ieTx]; lia|]. apply (proj2 (C78_frame g dt l2m mul tss tep tes junk vx vz s)). intros x' z' Hx' _ Hz' E.
  assert (N : ieTz g <= naz g /\ 0 <= ioTz g) by (unfold g; cbn [layout ieTz ioTz naz]; split; [|apply Z.div_pos; lia]; pose proof (Z.mul_div_le iorder 2 ltac:(lia)); lia).
  apply cell_eq in E; [|lia|lia]. destruct E as [E _]. assert (iePx g = ieTx g - 1) by (unfold g; cbn [layout iePx ieTx]; lia). unfold x in E. lia.
Qed.
Print Assumptions C78_last_column_refuted.
(** ... and those of the last row are computed with factors that were never set. *)
Theorem C78_last_row_refuted nx nz iorder b dt l2m mul tss tep tes s x : sizes nx nz iorder b 1 -> let g := layout nx nz iorder b in
  let z := ieTz g - 1 in ioTx g <= x < iePx g -> snd (xz s) (x * naz g + z) = 0%R ->
  ioTz g <= z < ieTz g /\ exists vx vz junk junk', fst (xz (viscoelastic g dt l2m mul tss tep tes junk vx vz s)) (x * naz g + z) <> fst (xz (viscoelastic g dt l2m mul tss tep tes junk' vx vz s)) (x * naz g + z).
Proof.
  intros H g z Hx Hq. assert (Hz : 1 <= nz) by apply H. assert (Hn : 0 <= npml b) by apply H. pose proof (pad_nonneg b Hn (top b)) as Pt. pose proof (pad_nonneg b Hn (bot b)) as Pu.
  assert (Ho : 2 <= iorder) by apply H.
  assert (Hg : 0 <= ioPz g /\ iePz g <= naz g /\ 0 <= ioTz g /\ ieTz g <= naz g /\ z = iePz g /\ ioPx g <= ioTx g).
  { unfold z, g; cbn [layout ieTz ioTz iePz ioPz naz ioPx ioTx]. pose proof (Z.mul_div_le iorder 2 ltac:(lia)). assert (1 <= iorder / 2) by (apply Z.div_le_lower_bound; lia). conjs; lia. }
  destruct Hg as (G1 & G2 & G3 & G4 & G5 & G6).
  assert (Tz : ioTz g <= z < ieTz g) by (unfold z, g; cbn [layout ioTz ieTz]; lia). split; [exact Tz|].
  set (vx := fun i => if i =? x * naz g + z then 1%R else 0%R). set (J := fun v : R => mkTemps (fun _ => v) (fun _ => 0%R) (fun _ => 0%R) (fun _ => 0%R)).
  exists vx, (fun _ => 0%R), (J 0%R), (J 1%R).
  assert (D : (dzvx g vx x z + dxvz g (fun _ => 0%R) x z = 9 / 8)%R).
  { unfold dzvx, dxvz, c1, c2, vx. rewrite Z.eqb_refl. replace (x * naz g + z - 1 =? x * naz g + z) with false by lia. replace (x * naz g + z + 1 =? x * naz g + z) with false by lia. replace (x * naz g + z - 2 =? x * naz g + z) with false by lia. field. }
  assert (K : forall v, fst (xz (viscoelastic g dt l2m mul tss tep tes (J v) vx (fun _ => 0%R) s)) (x * naz g + z) = (fst (xz s) (x * naz g + z)%Z - v * (9 / 8))%R).
  { intros v. unfold viscoelastic.
    set (step := fun st ix => _).
    assert (Inv : forall l st, (Tus (snd st) z = v /\ Tmu (snd st) z = 0%R /\ Tt1 (snd st) z = 0%R /\ Tt2 (snd st) z = 0%R) -> (Tus (snd (fold_left step l st)) z = v /\ Tmu (snd (fold_left step l st)) z = 0%R /\ Tt1 (snd (fold_left step l st)) z = 0%R /\ Tt2 (snd (fold_left step l st)) z = 0%R)).
    { induction l as [|a l IH]; intros st I; [exact I|]. cbn [fold_left]. apply IH. unfold step. cbn [snd]. unfold set_temps. cbn [Tus Tmu Tt1 Tt2]. rewrite !column_ok. replace ((ioPz g <=? z) && (z <? iePz g)) with false by lia. exact I. }
    assert (Sp : range (ioPx g) (iePx g) = range (ioPx g) x ++ x :: range (x + 1) (iePx g)).
    { rewrite (range_split (ioPx g) x) by lia. f_equal. rewrite (range_split x (x + 1)) by lia. rewrite range_snoc, (range_nil x x) by lia. reflexivity. }
    assert (Oth : forall l st, ~ In x l -> view1 g x z (xz (fst (fold_left step l st))) = view1 g x z (xz (fst st))).
    { intros l st Nx. apply (fold_same (fun st : stresses * temps => view1 g x z (xz (fst st)))). intros st' a Ha. unfold step. cbn [fst xz]. apply shear_other; try tauto; try lia. intros ->. contradiction. }
    rewrite Sp, fold_left_app. cbn [fold_left]. set (st := fold_left step (range (ioPx g) x) (s, J v)).
    destruct (Inv (range (ioPx g) x) (s, J v) ltac:(cbn; tauto)) as (I1 & I2 & I3 & I4). fold st in I1, I2, I3, I4.
    assert (O1 := Oth (range (x + 1) (iePx g)) (step st x) ltac:(intros Hi; apply in_range in Hi; lia)).
    assert (O2 := Oth (range (ioPx g) x) (s, J v) ltac:(intros Hi; apply in_range in Hi; lia)). fold st in O2. cbn [fst] in O2.
    assert (O3 : view1 g x z (xz (fst (step st x))) = solid_step (v * (9 / 8)) 0 0 (view1 g x z (xz s))).
    { unfold step. cbn [fst xz]. rewrite (shear_here g l2m mul tss tep tes (set_temps g dt mul tss tes x (snd st)) x z (fun iz => dzvx g vx x iz + dxvz g (fun _ => 0%R) x iz)%R (xz (fst st))) by lia. rewrite O2. unfold set_temps. cbn [Tus Tmu Tt1 Tt2]. rewrite !column_ok. replace ((ioPz g <=? z) && (z <? iePz g)) with false by lia. rewrite I1, I2, I3, I4, D. unfold solid_step. f_equal; ring. }
    rewrite O3 in O1. apply (f_equal fst) in O1. unfold view1, solid_step in O1. cbn [fst snd] in O1. rewrite O1, Hq. ring. }
  rewrite !K. lra.
Qed.
Print Assumptions C78_last_row_refuted.
(** One step of shear over a grid of two by two points *)
Example C78_nonvacuous : let g := layout 2 2 4 (mk_bnd 3 3 3 3 0) in let zero := (fun _ : Z => 0%R, fun _ : Z => 0%R) in
  fst (xz (elastic_run g 1 (fun _ => 4%R) (fun _ => 1%R) (fun _ => 1%R) (fun _ => 3%R) (fun _ => 3%R) (fun _ => mkTemps (fun _ => 0%R) (fun _ => 0%R) (fun _ => 0%R) (fun _ => 0%R)) (fun _ i => if i =? 2 * naz g + 2 then 1%R else 0%R) (fun _ _ => 0%R) (fun _ _ => 0%R) (fun _ _ => 0%R) (fun _ _ => 0%R) 1 (mkStresses zero zero zero))) (2 * naz g + 2) = (- (7 / 3 * (9 / 8)))%R.
Proof.
  cbv zeta. match goal with |- fst (xz (elastic_run ?g ?dt ?a ?b ?c ?d ?e ?j ?vx ?vz ?s1 ?s2 ?s3 ?n ?s0)) _ = _ => destruct (C78_stresses g dt a b c d e j vx vz s1 s2 s3 n s0 2 2) as (_ & _ & E) end; try (cbn; lia); try reflexivity; try lra.
  rewrite E by (cbn; lia).
  unfold response, relaxation, decay, behind, ahead. cbn [upto Nat.sub pow]. cbn [layout naz].
  repeat match goal with |- context [if ?c then _ else _] => let v := eval vm_compute in c in change c with v end. cbn. field.
Qed.
