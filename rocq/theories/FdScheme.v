(** One time step of the kernels with tapered sides, cell by cell. *)
From Coq Require Import ZArith List Bool QArith Lia.
From Verif Require Import ListAux FdMachine FdKernels FdProofs FdSpec FdReads FdBounds FdRace FdLinear FdLocal FdSchedules.
Import ListNotations.
Local Open Scope Z_scope.

(** ** sums *)
Section Sums.
Context {V : Type} (O : ops V) (m : mem (V := V)).
Notation eval := (eval O).
Lemma eval_fold l : forall e, eval m (fold_left Add l e) = fold_left (v_add O) (map (eval m) l) (eval m e).
Proof. induction l as [|a r IH]; intros e; [reflexivity|]. cbn [fold_left map]. rewrite IH. reflexivity. Qed.
Lemma terms_eval (d : Z -> expr) (dv : Z -> V) cs : (forall k, eval m (d k) = dv k) -> forall st,
  map (eval m) (map (fun '(k, c) => Mul c (d (Z.of_nat k))) (combine (seq st (length (map Lit cs))) (map Lit cs))) =
  map (fun '(k, c) => v_mul O (v_lit O c) (dv (Z.of_nat k))) (combine (seq st (length cs)) cs).
Proof.
  intros E. induction cs as [|c r IH]; intros st; [reflexivity|]. cbn [map length seq combine]. rewrite IH. f_equal. cbn [FdMachine.eval]. now rewrite E.
Qed.
Lemma eval_sum d dv cs : cs <> [] -> (forall k, eval m (d k) = dv k) -> eval m (sum (diff d (map Lit cs))) = stencil O cs dv.
Proof.
  intros N E. destruct cs as [|c r]; [congruence|]. unfold diff. cbn [map length seq combine sum]. rewrite eval_fold, (terms_eval d dv r E 1).
  unfold stencil. cbn [FdMachine.eval]. now rewrite E.
Qed.
Lemma eval_sum_app d dv e ev cs : cs <> [] -> (forall k, eval m (d k) = dv k) -> (forall k, eval m (e k) = ev k) ->
  eval m (sum (diff d (map Lit cs) ++ diff e (map Lit cs))) = stencil_from O (stencil O cs dv) cs ev.
Proof.
  intros N D E. unfold stencil_from. rewrite <- (terms_eval e ev cs E 0). fold (diff e (map Lit cs)).
  destruct cs as [|c r]; [congruence|]. cbn [map]. unfold diff at 1. cbn [length seq combine app sum map]. rewrite fold_left_app, eval_fold. f_equal.
  rewrite eval_fold, (terms_eval d dv r D 1). unfold stencil. cbn [FdMachine.eval]. now rewrite D.
Qed.
Lemma eval_sum2 (a1 b1 a2 b2 : Z -> expr) (p q : Z -> V * V) cs : cs <> [] ->
  (forall k, (eval m (a1 k), eval m (b1 k)) = p k) -> (forall k, (eval m (a2 k), eval m (b2 k)) = q k) ->
  eval m (sum (diff2 (fun k => Sub (a1 k) (b1 k)) (fun k => Sub (a2 k) (b2 k)) (map Lit cs))) = stencil O cs (both O p q).
Proof.
  intros N P Q. change (diff2 (fun k => Sub (a1 k) (b1 k)) (fun k => Sub (a2 k) (b2 k)) (map Lit cs)) with
    (diff (fun k => Sub (Add (Sub (a1 k) (b1 k)) (a2 k)) (b2 k)) (map Lit cs)).
  apply eval_sum; [exact N|]. intros k. unfold both. rewrite <- P, <- Q. reflexivity.
Qed.
End Sums.

Section Terms.
Context {V : Type} (O : ops V) (m : mem (V := V)) (cs : list Q) (N : cs <> []).
Notation eval := (eval O).
Lemma eval_vx_ac ix iz : eval m (Sub (Rd VX ix iz) (vx_ac (map Lit cs) ix iz)) = vx_acoustic O m cs ix iz.
Proof. unfold vx_ac, vx_acoustic. cbn [FdMachine.eval]. rewrite (eval_sum O m _ (left_diff O m TZZ ix iz) cs N); [reflexivity|intros; reflexivity]. Qed.
Lemma eval_vz_ac ix iz : eval m (Sub (Rd VZ ix iz) (vz_ac (map Lit cs) ix iz)) = vz_acoustic O m cs ix iz.
Proof. unfold vz_ac, vz_acoustic. cbn [FdMachine.eval]. rewrite (eval_sum O m _ (up_diff O m TZZ ix iz) cs N); [reflexivity|intros; reflexivity]. Qed.
Lemma eval_vx_el ix iz : eval m (Sub (Rd VX ix iz) (vx_el (map Lit cs) ix iz)) = vx_elastic O m cs ix iz.
Proof. unfold vx_el, vx_elastic. cbn [FdMachine.eval]. unfold back_x, fwd_z. rewrite (eval_sum2 O m _ _ _ _ (left_pair m TXX ix iz) (down_pair m TXZ ix iz) cs N); intros; reflexivity. Qed.
Lemma eval_vz_el ix iz : eval m (Sub (Rd VZ ix iz) (vz_el (map Lit cs) ix iz)) = vz_elastic O m cs ix iz.
Proof. unfold vz_el, vz_elastic. cbn [FdMachine.eval]. unfold back_z, fwd_x. rewrite (eval_sum2 O m _ _ _ _ (up_pair m TZZ ix iz) (right_pair m TXZ ix iz) cs N); intros; reflexivity. Qed.
Lemma eval_txz ix iz : eval m (Sub (Rd TXZ ix iz) (txz_el (map Lit cs) ix iz)) = txz_elastic O m m cs ix iz.
Proof. unfold txz_el, txz_elastic. cbn [FdMachine.eval]. unfold back_z, back_x. rewrite (eval_sum2 O m _ _ _ _ (up_pair m VX ix iz) (left_pair m VZ ix iz) cs N); intros; reflexivity. Qed.
Lemma eval_p ix iz : eval m (Sub (Rd TZZ ix iz) (p_ac (map Lit cs) ix iz)) = p_acoustic O m m cs ix iz.
Proof. unfold p_ac, p_acoustic. cbn [FdMachine.eval]. rewrite (eval_sum_app O m _ (right_diff O m VX ix iz) _ (down_diff O m VZ ix iz) cs N); intros; reflexivity. Qed.
Lemma eval_txx lam ix iz : eval m (Sub (Rd TXX ix iz) (txx_el (map Lit cs) lam ix iz)) = txx_elastic O m m lam cs ix iz.
Proof.
  unfold txx_el, txx_elastic, dvx, dvz. cbn [FdMachine.eval].
  rewrite (eval_sum O m (fwd_x VX ix iz) (right_diff O m VX ix iz) cs N), (eval_sum O m (fwd_z VZ ix iz) (down_diff O m VZ ix iz) cs N); intros; reflexivity.
Qed.
Lemma eval_tzz lam ix iz : eval m (Sub (Rd TZZ ix iz) (tzz_el (map Lit cs) lam ix iz)) = tzz_elastic O m m lam cs ix iz.
Proof.
  unfold tzz_el, tzz_elastic, dvx, dvz. cbn [FdMachine.eval].
  rewrite (eval_sum O m (fwd_x VX ix iz) (right_diff O m VX ix iz) cs N), (eval_sum O m (fwd_z VZ ix iz) (down_diff O m VZ ix iz) cs N); intros; reflexivity.
Qed.
End Terms.

(** ** disjoint rectangles *)
Record rect := mk_rect { r_f : field; r_x0 : Z; r_x1 : Z; r_z0 : Z; r_z1 : Z; r_e : Z -> Z -> expr }.
Definition acts (r : rect) : list action := loop (r_x0 r) (r_x1 r) (r_z0 r) (r_z1 r) (fun ix iz => [mk_action (r_f r, ix, iz) (r_e r ix iz)]).
Definition apart (r s : rect) : Prop := r_f r <> r_f s \/ r_x1 r <= r_x0 s \/ r_x1 s <= r_x0 r \/ r_z1 r <= r_z0 s \/ r_z1 s <= r_z0 r.
Lemma in_acts r a : In a (acts r) <-> exists ix iz, r_x0 r <= ix < r_x1 r /\ r_z0 r <= iz < r_z1 r /\ a = mk_action (r_f r, ix, iz) (r_e r ix iz).
Proof.
  unfold acts. rewrite in_loop. split; intros (ix & iz & Hx & Hz & H); exists ix, iz; (split; [exact Hx|split; [exact Hz|]]).
  - destruct H as [<-|[]]. reflexivity.
  - left. now symmetry.
Qed.
Lemma NoDup_rects l : ForallOrdPairs apart l -> NoDup (map tgt (flat_map acts l)).
Proof.
  induction 1 as [|r l F _ IH]; [constructor|]. cbn [flat_map]. rewrite map_app. apply NoDup_app_iff; [apply NoDup_loop1|exact IH|].
  intros x Hx Hy. apply in_map_iff in Hx as (a & <- & Ha), Hy as (c & E & Hc). apply in_flat_map in Hc as (s & Hs & Hc).
  rewrite Forall_forall in F. specialize (F s Hs). unfold apart in F.
  apply in_acts in Ha as (ix & iz & ? & ? & ->), Hc as (jx & jz & ? & ? & ->). cbn [tgt] in E. inversion E; subst.
  destruct F as [F|F]; [congruence|lia].
Qed.
Lemma rects_value {V} (O : ops V) l m r ix iz : ForallOrdPairs apart l -> conflict_free (flat_map acts l) -> In r l ->
  r_x0 r <= ix < r_x1 r -> r_z0 r <= iz < r_z1 r -> exec_all O (flat_map acts l) m (r_f r, ix, iz) = eval O m (r_e r ix iz).
Proof.
  intros A C Hr Hx Hz. rewrite (exec_all_sim O _ m C). change (r_f r, ix, iz) with (tgt (mk_action (r_f r, ix, iz) (r_e r ix iz))).
  rewrite sim_in; [reflexivity|now apply NoDup_rects|]. apply in_flat_map. exists r. split; [exact Hr|]. apply in_acts. exists ix, iz. auto.
Qed.
Lemma rects_frame {V} (O : ops V) l m f ix iz : conflict_free (flat_map acts l) ->
  (forall r, In r l -> r_f r = f -> r_x0 r <= ix < r_x1 r -> r_z0 r <= iz < r_z1 r -> False) -> exec_all O (flat_map acts l) m (f, ix, iz) = m (f, ix, iz).
Proof.
  intros C H. rewrite (exec_all_sim O _ m C). apply sim_out. intros Hi. apply in_map_iff in Hi as (a & E & Ha). apply in_flat_map in Ha as (r & Hr & Ha).
  apply in_acts in Ha as (jx & jz & Hx & Hz & ->). cbn [tgt] in E. inversion E; subst. eapply H; eauto.
Qed.

Section Velocities.
Context (nx nz h : Z) (b : bnd) (elastic : bool) (surface : Z -> Z).
Context (Hnx : 0 < nx) (Hnz : 0 < nz) (Hn : 0 < npml b).
Context (Ht : top b = 4) (Hb : bot b = 4) (Hl : lef b = 4) (Hr : rig b = 4).
Let g := getgrid nx nz (2 * h) b.
Let n := npml b.
Context (ex ez : Z -> Z -> expr).
Definition rx x0 x1 z0 z1 (tap : Z -> Z -> expr) : rect := mk_rect VX x0 x1 z0 z1 (fun ix iz => Mul (Sub (Rd VX ix iz) (vx_bnd elastic ix iz)) (tap ix iz)).
Definition rz x0 x1 z0 z1 (tap : Z -> Z -> expr) : rect := mk_rect VZ x0 x1 z0 z1 (fun ix iz => Mul (Sub (Rd VZ ix iz) (vz_bnd elastic ix iz)) (tap ix iz)).
Definition border (r : Z -> Z -> Z -> Z -> (Z -> Z -> expr) -> rect) (f : field) (x0 x1 z0 z1 : Z) : list rect :=
  [r x0 x1 (z0 - n) z0 (fun _ iz => Rd f (n + (z0 - n) - 1 - iz) 0);
   r x1 (x1 + n) (z0 - n) z0 (fun ix iz => Rd TAPXZ (ix - x1) (n + (z0 - n) - 1 - iz));
   r (x0 - n) x0 (z0 - n) z0 (fun ix iz => Rd TAPXZ (n + (x0 - n) - 1 - ix) (n + (z0 - n) - 1 - iz))].
Definition border' (r : Z -> Z -> Z -> Z -> (Z -> Z -> expr) -> rect) (f : field) (x0 x1 z0 z1 : Z) : list rect :=
  [r x0 x1 z1 (z1 + n) (fun _ iz => Rd f (iz - (z1 + n - n)) 0);
   r x1 (x1 + n) z1 (z1 + n) (fun ix iz => Rd TAPXZ (ix - x1) (iz - z1));
   r (x0 - n) x0 z1 (z1 + n) (fun ix iz => Rd TAPXZ (n + (x0 - n) - 1 - ix) (iz - z1))].
Definition rects : list rect :=
  [mk_rect VX (ioXx g) (ieXx g) (ioXz g) (ieXz g) (fun ix iz => Sub (Rd VX ix iz) (ex ix iz));
   mk_rect VZ (ioZx g) (ieZx g) (ioZz g) (ieZz g) (fun ix iz => Sub (Rd VZ ix iz) (ez ix iz))] ++
  border rx TAPX (ioXx g) (ieXx g) (ioXz g) (ieXz g) ++ border rz TAPZ (ioZx g) (ieZx g) (ioZz g) (ieZz g) ++
  border' rx TAPX (ioXx g) (ieXx g) (ioXz g) (ieXz g) ++ border' rz TAPZ (ioZx g) (ieZx g) (ioZz g) (ieZz g) ++
  [rx (ioXx g - n) (ioXx g) (ioXz g) (ieXz g) (fun ix _ => Rd TAPX (n + (ioXx g - n) - 1 - ix) 0);
   rz (ioZx g - n) (ioZx g) (ioZz g) (ieZz g) (fun ix _ => Rd TAPZ (n + (ioZx g - n) - 1 - ix) 0);
   rx (ieXx g) (ieXx g + n) (ioXz g) (ieXz g) (fun ix _ => Rd TAPX (ix - (ieXx g + n - n)) 0);
   rz (ieZx g) (ieZx g + n) (ioZz g) (ieZz g) (fun ix _ => Rd TAPZ (ix - (ieZx g + n - n)) 0)].
Lemma rects_prog : flat_map (work 1) ([For (vx_loop g ex); For (vz_loop g ez); Barrier] ++ boundariesP g b elastic surface) = flat_map acts rects.
Proof.
  unfold boundariesP. rewrite Ht, Hb, Hl, Hr, andb_false_r. cbn [Z.eqb Pos.eqb tapered when app].
  unfold taper_top, taper_bot, taper_lef, taper_rig. cbv zeta. rewrite Hl, Hr. cbn [Z.eqb Pos.eqb tapered when app omp_for].
  unfold rects, border, border', acts, rx, rz. cbn [app flat_map work r_f r_x0 r_x1 r_z0 r_z1 r_e]. reflexivity.
Qed.
Lemma rects_apart : ForallOrdPairs apart rects.
Proof.
  unfold rects, border, border', g, n in *. cbn [app getgrid ioXx ieXx ioXz ieXz ioZx ieZx ioZz ieZz].
  rewrite Ht, Hl. cbn [tapered Z.eqb Pos.eqb].
  repeat (apply FOP_cons; [repeat (apply Forall_cons; [unfold apart, rx, rz; cbn [r_f r_x0 r_x1 r_z0 r_z1]; first [left; discriminate|right; lia]|]); apply Forall_nil|]).
  apply FOP_nil.
Qed.
Context (Hh : 2 <= h) (Hex : forall ix iz, vel_act h (minus_eq VX ix iz (ex ix iz))) (Hez : forall ix iz, vel_act h (minus_eq VZ ix iz (ez ix iz))).
Lemma rects_free : conflict_free (flat_map acts rects).
Proof.
  apply (vel_conflict_free h); [apply NoDup_rects, rects_apart|]. rewrite <- rects_prog, flat_map_app. apply Forall_app. split.
  - cbn [flat_map work]. rewrite app_nil_r. apply Forall_app. split; apply Forall_loop; intros; (apply Forall_cons; [|apply Forall_nil]); auto.
  - apply Forall_forall. intros a Ha. eapply all_items_work; [|exact Ha]. apply vel_prog_items, boundariesP_tapered; auto.
Qed.

Context {V : Type} (O : ops V) (m : mem (V := V)).
Let m1 := exec_all O (flat_map (work 1) ([For (vx_loop g ex); For (vz_loop g ez); Barrier] ++ boundariesP g b elastic surface)) m.

Ltac split_all L := match type of L with
  | Forall _ [] => clear L
  | Forall _ (_ :: _) => let H := fresh "K" in pose proof (Forall_inv L) as H; apply Forall_inv_tail in L; cbn [rx rz r_f r_x0 r_x1 r_z0 r_z1 r_e] in H; split_all L
  end.
Ltac cell f := 
  repeat match goal with H : f = f -> _ |- _ => specialize (H eq_refl) | H : ?f' = f -> _ |- _ => clear H end;
  unfold beyond; repeat match goal with |- context [?i <? ?j] => destruct (Z.ltb_spec i j) end; cbn [tapered_value];
  match goal with H : _ -> _ -> ?x = _ |- ?x = _ => rewrite H by lia; cbn [FdMachine.eval]; first [reflexivity|repeat (f_equal; try lia)] end.
Lemma vel_x ix iz : ioXx g - n <= ix < ieXx g + n -> ioXz g - n <= iz < ieXz g + n ->
  m1 (VX, ix, iz) = tapered_value O m TAPX (beyond (ioXx g) (ieXx g) ix) (beyond (ioXz g) (ieXz g) iz)
    (eval O m (Sub (Rd VX ix iz) (ex ix iz))) (eval O m (Sub (Rd VX ix iz) (vx_bnd elastic ix iz))).
Proof.
  intros Hx Hz. unfold m1. rewrite rects_prog. remember (exec_all O (flat_map acts rects) m (VX, ix, iz)) as v eqn:Ev.
  assert (L : Forall (fun r => r_f r = VX -> r_x0 r <= ix < r_x1 r -> r_z0 r <= iz < r_z1 r -> v = eval O m (r_e r ix iz)) rects).
  { apply Forall_forall; intros r Hi E ? ?. rewrite Ev, <- E. apply rects_value; auto using rects_apart, rects_free. }
  clear Ev. unfold rects, border, border' in L. cbn [app] in L. split_all L. cell VX.
Qed.
Lemma vel_z ix iz : ioZx g - n <= ix < ieZx g + n -> ioZz g - n <= iz < ieZz g + n ->
  m1 (VZ, ix, iz) = tapered_value O m TAPZ (beyond (ioZx g) (ieZx g) ix) (beyond (ioZz g) (ieZz g) iz)
    (eval O m (Sub (Rd VZ ix iz) (ez ix iz))) (eval O m (Sub (Rd VZ ix iz) (vz_bnd elastic ix iz))).
Proof.
  intros Hx Hz. unfold m1. rewrite rects_prog. remember (exec_all O (flat_map acts rects) m (VZ, ix, iz)) as v eqn:Ev.
  assert (L : Forall (fun r => r_f r = VZ -> r_x0 r <= ix < r_x1 r -> r_z0 r <= iz < r_z1 r -> v = eval O m (r_e r ix iz)) rects).
  { apply Forall_forall; intros r Hi E ? ?. rewrite Ev, <- E. apply rects_value; auto using rects_apart, rects_free. }
  clear Ev. unfold rects, border, border' in L. cbn [app] in L. split_all L. cell VZ.
Qed.
(** nothing else changes *)
Lemma vel_frame f ix iz : (f = VX -> ~ (ioXx g - n <= ix < ieXx g + n /\ ioXz g - n <= iz < ieXz g + n)) ->
  (f = VZ -> ~ (ioZx g - n <= ix < ieZx g + n /\ ioZz g - n <= iz < ieZz g + n)) -> m1 (f, ix, iz) = m (f, ix, iz).
Proof.
  intros Fx Fz. unfold m1. rewrite rects_prog. apply rects_frame; [apply rects_free|].
  assert (E : ioXx g <= ieXx g /\ ioXz g <= ieXz g /\ ioZx g <= ieZx g /\ ioZz g <= ieZz g) by (cbn [g getgrid ioXx ieXx ioXz ieXz ioZx ieZx ioZz ieZz]; lia).
  intros r Hi <- Hx Hz. fold n in Hn. unfold rects, border, border' in Hi. cbn [app In] in Hi.
  decompose [or] Hi; clear Hi; try contradiction; subst r; cbn [rx rz r_f r_x0 r_x1 r_z0 r_z1] in *;
    first [apply (Fx eq_refl); lia|apply (Fz eq_refl); lia].
Qed.
End Velocities.

Lemma stencil_ext {V} (O : ops V) cs d d' : (forall k, d k = d' k) -> stencil O cs d = stencil O cs d'.
Proof.
  intros E. destruct cs as [|c r]; [reflexivity|]. unfold stencil. rewrite E. f_equal. apply map_ext. intros [k q]. now rewrite E.
Qed.
Lemma stencil_from_ext {V} (O : ops V) s cs d d' : (forall k, d k = d' k) -> stencil_from O s cs d = stencil_from O s cs d'.
Proof. intros E. unfold stencil_from. f_equal. apply map_ext. intros [k q]. now rewrite E. Qed.

(** ** stresses and sources *)
Section Stress.
Context (nx nz h : Z) (b : bnd) (elastic : bool) (sources : list (Z * Z)) (dxi : Q).
Context (Hl : lef b = 4) (Ht : top b = 4) (N : NoDup sources).
Let g := getgrid nx nz (2 * h) b.
Definition src_list : list action := flat_map (fun '(k, s) => source_at g b elastic 1 dxi k s) (combine (seq 0 (length sources)) sources).
Definition cell_of (s : Z * Z) : Z * Z := (fst s + (ioPx g + npml b), snd s + (ioPz g + npml b)).
Context {V : Type} (O : ops V) (m : mem (V := V)).
Let m' := exec_all O src_list m.
Lemma src_in a : In a src_list <-> exists k s, nth_error sources k = Some s /\ 0 <= fst s <= nx /\
  let '(ix, iz) := cell_of s in let ampl := Mul (Rd SRC (Z.of_nat k) 0) (Mul (Lit dxi) (Rd L2M ix iz)) in
  a = plus_eq TZZ ix iz ampl \/ (elastic = true /\ a = plus_eq TXX ix iz ampl).
Proof.
  unfold src_list. rewrite in_flat_map. split.
  - intros ([k s] & Hk & Ha). apply combine_seq_nth in Hk as [_ Hk]. rewrite Nat.sub_0_r in Hk. exists k, s. split; [exact Hk|].
    unfold source_at, src_offset in Ha. cbn [Z.eqb Pos.eqb fst snd] in Ha. rewrite Hl, Ht in Ha. cbn [tapered Z.eqb Pos.eqb] in Ha.
    destruct (_ || _) eqn:E; [destruct Ha|]. apply orb_false_iff in E as [E1 E2]. apply Z.ltb_ge in E1, E2. change (FdKernels.nx g) with nx in E2.
    split; [lia|]. cbn [cell_of]. destruct elastic; cbn [In] in Ha; intuition.
  - intros (k & s & Hk & Hs & Ha). exists (k, s). split.
    + apply nth_error_split in Hk as (l1 & l2 & -> & <-). rewrite app_length. cbn [length]. rewrite seq_app. cbn [seq]. 
      clear. assert (G : forall (l1 : list (Z * Z)) st r r', In (st + length l1, s)%nat (combine (seq st (length l1) ++ (st + length l1)%nat :: r) (l1 ++ s :: r'))).
      { intros l0. induction l0 as [|x l IH]; intros st r r'; cbn [length seq app combine]; [left; now rewrite Nat.add_0_r|].
        right. rewrite Nat.add_succ_r. apply (IH (S st)). }
      apply (G l1 0%nat).
    + unfold source_at, src_offset. cbn [Z.eqb Pos.eqb fst snd]. rewrite Hl, Ht. cbn [tapered Z.eqb Pos.eqb]. change (FdKernels.nx g) with nx.
      destruct (Z.ltb_spec (fst s) 0); [lia|]. destruct (Z.ltb_spec nx (fst s)); [lia|]. cbn [orb].
      unfold cell_of in Ha. destruct elastic; cbn [In]; intuition congruence.
Qed.
Lemma src_value k s f : nth_error sources k = Some s -> 0 <= fst s <= nx -> f = TZZ \/ (elastic = true /\ f = TXX) ->
  let '(ix, iz) := cell_of s in m' (f, ix, iz) = v_add O (m (f, ix, iz)) (v_mul O (m (SRC, Z.of_nat k, 0)) (v_mul O (v_lit O dxi) (m (L2M, ix, iz)))).
Proof.
  intros Hk Hs Hf. destruct (cell_of s) as [ix iz] eqn:Ec. unfold m'. pose proof (source_conflict_free g b elastic 1 sources dxi N) as C. fold src_list in C.
  rewrite (exec_all_sim O _ m C). change (f, ix, iz) with (tgt (plus_eq f ix iz (Mul (Rd SRC (Z.of_nat k) 0) (Mul (Lit dxi) (Rd L2M ix iz))))).
  rewrite sim_in; [reflexivity|apply C|]. apply src_in. exists k, s. split; [exact Hk|]. split; [exact Hs|]. rewrite Ec. destruct Hf as [->|[E ->]]; auto.
Qed.
Lemma src_frame f ix iz : (f = TZZ \/ f = TXX -> forall s, In s sources -> 0 <= fst s <= nx -> cell_of s <> (ix, iz)) -> m' (f, ix, iz) = m (f, ix, iz).
Proof.
  intros F. unfold m'. pose proof (source_conflict_free g b elastic 1 sources dxi N) as C. fold src_list in C. rewrite (exec_all_sim O _ m C). apply sim_out.
  intros Hi. apply in_map_iff in Hi as (a & E & Ha). apply src_in in Ha as (k & s & Hk & Hs & Ha). destruct (cell_of s) as [jx jz] eqn:Ec.
  assert (Hf : f = TZZ \/ f = TXX) by (destruct Ha as [->|[_ ->]]; cbn in E; inversion E; auto).
  apply (F Hf s (nth_error_In _ _ Hk) Hs). rewrite Ec. destruct Ha as [->|[_ ->]]; cbn in E; inversion E; reflexivity.
Qed.
Lemma src_TXX_frame ix iz : elastic = false -> m' (TXX, ix, iz) = m (TXX, ix, iz).
Proof.
  intros Ef. unfold m'. pose proof (source_conflict_free g b elastic 1 sources dxi N) as C. fold src_list in C. rewrite (exec_all_sim O _ m C). apply sim_out.
  intros Hi. apply in_map_iff in Hi as (a & E & Ha). apply src_in in Ha as (k & s & Hk & Hs & Ha). destruct (cell_of s) as [jx jz] eqn:Ec.
  destruct Ha as [->|[Et ->]]; [cbn in E; discriminate|congruence].
Qed.
End Stress.

(** ** the acoustic step *)
Section AcousticStep.
Context (nx nz h : Z) (b : bnd) (surface : Z -> Z) (sources : list (Z * Z)) (dxi : Q).
Context (Hnx : 0 < nx) (Hnz : 0 < nz) (Hn : 0 < npml b) (Hh : 2 <= h).
Context (Ht : top b = 4) (Hb : bot b = 4) (Hl : lef b = 4) (Hr : rig b = 4) (N : NoDup sources).
Let g := getgrid nx nz (2 * h) b.
Let n := npml b.
Context (ex ez ep : Z -> Z -> expr).
Context (Hex : forall ix iz, vel_act h (minus_eq VX ix iz (ex ix iz))) (Hez : forall ix iz, vel_act h (minus_eq VZ ix iz (ez ix iz)))
  (Hep : forall ix iz, str_act h (minus_eq TZZ ix iz (ep ix iz))).
Context {V : Type} (O : ops V) (m : mem (V := V)).
Definition flat : list action := flat_map (work 1) ([For (vx_loop g ex); For (vz_loop g ez); Barrier] ++ boundariesP g b false surface) ++
  p_loop g ep ++ src_list nx nz h b false sources dxi.
Let m1 := exec_all O (flat_map (work 1) ([For (vx_loop g ex); For (vz_loop g ez); Barrier] ++ boundariesP g b false surface)) m.
Let m2 := exec_all O (p_loop g ep) m1.
Let m3 := exec_all O flat m.
Lemma flat_m3 : m3 = exec_all O (src_list nx nz h b false sources dxi) m2.
Proof. unfold m3, flat. rewrite !(exec_all_app O). reflexivity. Qed.
Lemma p_free : conflict_free (p_loop g ep).
Proof. apply (str_conflict_free h); [apply NoDup_loop1|]. apply Forall_loop. intros. apply Forall_cons; [apply Hep|apply Forall_nil]. Qed.
Lemma p_value ix iz : ioPx g <= ix < iePx g -> ioPz g <= iz < iePz g -> m2 (TZZ, ix, iz) = eval O m1 (Sub (Rd TZZ ix iz) (ep ix iz)).
Proof.
  intros Hx Hz. unfold m2. rewrite (exec_all_sim O _ _ p_free). change (TZZ, ix, iz) with (tgt (minus_eq TZZ ix iz (ep ix iz))).
  rewrite sim_in; [reflexivity|apply p_free|]. apply in_loop. exists ix, iz. cbn. auto.
Qed.
Lemma p_frame f ix iz : ~ (f = TZZ /\ ioPx g <= ix < iePx g /\ ioPz g <= iz < iePz g) -> m2 (f, ix, iz) = m1 (f, ix, iz).
Proof.
  intros F. unfold m2. rewrite (exec_all_sim O _ _ p_free). apply sim_out. intros Hi. apply in_map_iff in Hi as (a & E & Ha).
  apply in_loop in Ha as (jx & jz & Hx & Hz & [<-|[]]). cbn in E. inversion E; subst. apply F. auto.
Qed.
Lemma m1_other f ix iz : f <> VX -> f <> VZ -> m1 (f, ix, iz) = m (f, ix, iz).
Proof. intros A B. apply vel_frame with (h := h); auto; intros ->; congruence. Qed.
Lemma m3_vel f ix iz : f <> TZZ -> m3 (f, ix, iz) = m1 (f, ix, iz).
Proof.
  intros A. rewrite flat_m3. transitivity (m2 (f, ix, iz)); [|apply p_frame; intuition].
  destruct (field_eq_dec f TXX) as [->|B]; [now apply src_TXX_frame|]. apply src_frame; auto. intros [|]; congruence.
Qed.
End AcousticStep.

(** ** the elastic step *)
Section ElasticStep.
Context (nx nz h : Z) (b : bnd) (surface : Z -> Z) (sources : list (Z * Z)) (dxi : Q).
Context (Hnx : 0 < nx) (Hnz : 0 < nz) (Hn : 0 < npml b) (Hh : 2 <= h).
Context (Ht : top b = 4) (Hb : bot b = 4) (Hl : lef b = 4) (Hr : rig b = 4) (N : NoDup sources).
Let g := getgrid nx nz (2 * h) b.
Context (cs : list expr) (Lc : literals cs) (Hc : Z.of_nat (length cs) <= h).
Context {V : Type} (O : ops V) (m : mem (V := V)).
Let vels := flat_map (work 1) ([For (vx_loop g (vx_el cs)); For (vz_loop g (vz_el cs)); Barrier] ++ boundariesP g b true surface).
Definition strs : list action := stress_loop g cs LAM ++ loop (ioTx g) (ieTx g) (ioTz g) (ieTz g) (fun ix iz => [minus_eq TXZ ix iz (txz_el cs ix iz)]).
Definition flat_el : list action := flat_map (work 1) ([For (vx_loop g (vx_el cs)); For (vz_loop g (vz_el cs)); Barrier] ++ boundariesP g b true surface) ++
  strs ++ src_list nx nz h b true sources dxi.
Let m1 := exec_all O vels m.
Let m2 := exec_all O strs m1.
Let m3 := exec_all O flat_el m.
Lemma flat_el_m3 : m3 = exec_all O (src_list nx nz h b true sources dxi) m2.
Proof. unfold m3, flat_el. rewrite !(exec_all_app O). reflexivity. Qed.
Lemma strs_free : conflict_free strs.
Proof.
  apply (str_conflict_free h).
  - unfold strs. rewrite map_app. apply (Permutation.Permutation_NoDup (Permutation.Permutation_app_comm _ _)). rewrite <- map_app.
    apply NoDup_two with (f := TXZ); [apply NoDup_loop1|apply stress_loop_NoDup|apply field_loop1|apply stress_loop_fields].
  - apply Forall_app. split; [apply stress_loop_acts; auto|]. apply Forall_loop. intros. apply Forall_cons; [|apply Forall_nil]. now apply cl_txz.
Qed.
Lemma strs_xx ix iz : ioPx g <= ix < iePx g -> ioPz g <= iz < iePz g -> m2 (TXX, ix, iz) = eval O m1 (Sub (Rd TXX ix iz) (txx_el cs LAM ix iz)).
Proof.
  intros Hx Hz. unfold m2. rewrite (exec_all_sim O _ _ strs_free). change (TXX, ix, iz) with (tgt (minus_eq TXX ix iz (txx_el cs LAM ix iz))).
  rewrite sim_in; [reflexivity|apply strs_free|]. apply in_app_iff. left. apply in_loop. exists ix, iz. cbn. auto.
Qed.
Lemma strs_zz ix iz : ioPx g <= ix < iePx g -> ioPz g <= iz < iePz g -> m2 (TZZ, ix, iz) = eval O m1 (Sub (Rd TZZ ix iz) (tzz_el cs LAM ix iz)).
Proof.
  intros Hx Hz. unfold m2. rewrite (exec_all_sim O _ _ strs_free). change (TZZ, ix, iz) with (tgt (minus_eq TZZ ix iz (tzz_el cs LAM ix iz))).
  rewrite sim_in; [reflexivity|apply strs_free|]. apply in_app_iff. left. apply in_loop. exists ix, iz. cbn. auto.
Qed.
Lemma strs_xz ix iz : ioTx g <= ix < ieTx g -> ioTz g <= iz < ieTz g -> m2 (TXZ, ix, iz) = eval O m1 (Sub (Rd TXZ ix iz) (txz_el cs ix iz)).
Proof.
  intros Hx Hz. unfold m2. rewrite (exec_all_sim O _ _ strs_free). change (TXZ, ix, iz) with (tgt (minus_eq TXZ ix iz (txz_el cs ix iz))).
  rewrite sim_in; [reflexivity|apply strs_free|]. apply in_app_iff. right. apply in_loop. exists ix, iz. cbn. auto.
Qed.
Lemma strs_frame f ix iz : ~ ((f = TXX \/ f = TZZ) /\ ioPx g <= ix < iePx g /\ ioPz g <= iz < iePz g) ->
  ~ (f = TXZ /\ ioTx g <= ix < ieTx g /\ ioTz g <= iz < ieTz g) -> m2 (f, ix, iz) = m1 (f, ix, iz).
Proof.
  intros F F'. unfold m2. rewrite (exec_all_sim O _ _ strs_free). apply sim_out. intros Hi. apply in_map_iff in Hi as (a & E & Ha).
  apply in_app_iff in Ha as [Ha|Ha]; apply in_loop in Ha as (jx & jz & Hx & Hz & Ha).
  - destruct Ha as [<-|[<-|[]]]; cbn in E; inversion E; subst; apply F; auto.
  - destruct Ha as [<-|[]]. cbn in E. inversion E; subst. apply F'; auto.
Qed.
Lemma m1_el_other f ix iz : f <> VX -> f <> VZ -> m1 (f, ix, iz) = m (f, ix, iz).
Proof.
  intros A B. apply vel_frame with (h := h); auto; try (intros ->; congruence); intros; [now apply cl_vx_el|now apply cl_vz_el].
Qed.
Lemma m3_el_other f ix iz : f <> TZZ -> f <> TXX -> m3 (f, ix, iz) = m2 (f, ix, iz).
Proof. intros A B. rewrite flat_el_m3. apply src_frame; auto. intros [|]; congruence. Qed.
End ElasticStep.
