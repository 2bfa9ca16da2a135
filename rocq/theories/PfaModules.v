(** The modules of the prime-factor transform compute transforms of their length. *)
From Coq Require Import ZArith Reals List Lia Lra Ring.
From Verif Require Import FdKernels KissFft FftSpec FftAux FftInverse Pfa.
Import ListNotations.
Local Open Scope Z_scope.

Lemma root_eq f e k : f <> 0 -> e mod f = k -> root f 1 e = root f 1 k.
Proof. intros Hf <-. now rewrite root_mod by (auto || lia). Qed.
Lemma root_refl f e k : f <> 0 -> (e + k) mod f = 0 -> root f 1 e = conj (root f 1 k).
Proof.
  intros Hf H. rewrite <- root_opp by auto. rewrite (root_eq f e ((- k) mod f) Hf); [now apply root_mod; [left|]|].
  replace e with (- k + (e + k)) by ring. rewrite Z.add_mod by exact Hf. rewrite H, Z.add_0_r. now apply Z.mod_mod.
Qed.
Lemma cos_plus_case f r p q : (0 < IZR f)%R -> (IZR q <> 0)%R -> (PI / 2 - 2 * PI * IZR r / IZR f = IZR p * PI / IZR q)%R -> fst (root f 1 r) = sin (IZR p * PI / IZR q).
Proof. intros Hf Hq E. unfold root. cbn [fst]. rewrite <- E. now rewrite sin_shift. Qed.
Lemma cos_minus_case f r p q : (0 < IZR f)%R -> (IZR q <> 0)%R -> (2 * PI * IZR r / IZR f - PI / 2 = IZR p * PI / IZR q)%R -> fst (root f 1 r) = (- sin (IZR p * PI / IZR q))%R.
Proof.
  intros Hf Hq E. unfold root. cbn [fst]. rewrite <- E. replace (2 * PI * IZR r / IZR f - PI / 2)%R with (- (PI / 2 - 2 * PI * IZR r / IZR f))%R by ring. rewrite sin_neg, sin_shift. ring.
Qed.
Lemma sin_low_case f r p q : (2 * PI * IZR r / IZR f = IZR p * PI / IZR q)%R -> snd (root f 1 r) = sin (IZR p * PI / IZR q).
Proof. intros E. unfold root. cbn [snd]. rewrite E. ring. Qed.
Lemma sin_high_case f r p q : (PI - 2 * PI * IZR r / IZR f = IZR p * PI / IZR q)%R -> snd (root f 1 r) = sin (IZR p * PI / IZR q).
Proof. intros E. unfold root. cbn [snd]. rewrite <- E, sin_PI_x. ring. Qed.

Lemma sin3_1 : snd (root 3 1 1) = P866%R.
Proof. apply (sin_high_case 3 1 1 3); field. Qed.
Lemma sin5_1 : snd (root 5 1 1) = P951%R.
Proof. apply (sin_low_case 5 1 2 5); field. Qed.
Lemma sin5_2 : snd (root 5 1 2) = P587%R.
Proof. apply (sin_high_case 5 2 1 5); field. Qed.
Lemma cos7_1 : fst (root 7 1 1) = P623%R.
Proof. apply (cos_plus_case 7 1 3 14); [lra|lra|field]. Qed.
Lemma cos7_2 : fst (root 7 1 2) = (- P222)%R.
Proof. apply (cos_minus_case 7 2 1 14); [lra|lra|field]. Qed.
Lemma cos7_3 : fst (root 7 1 3) = (- P900)%R.
Proof. apply (cos_minus_case 7 3 5 14); [lra|lra|field]. Qed.
Lemma sin7_1 : snd (root 7 1 1) = P781%R.
Proof. apply (sin_low_case 7 1 2 7); field. Qed.
Lemma sin7_2 : snd (root 7 1 2) = P974%R.
Proof. apply (sin_high_case 7 2 3 7); field. Qed.
Lemma sin7_3 : snd (root 7 1 3) = P433%R.
Proof. apply (sin_high_case 7 3 1 7); field. Qed.
Lemma cos8_1 : fst (root 8 1 1) = P707%R.
Proof. apply (cos_plus_case 8 1 1 4); [lra|lra|field]. Qed.
Lemma cos8_3 : fst (root 8 1 3) = (- P707)%R.
Proof. apply (cos_minus_case 8 3 1 4); [lra|lra|field]. Qed.
Lemma sin8_1 : snd (root 8 1 1) = P707%R.
Proof. apply (sin_low_case 8 1 1 4); field. Qed.
Lemma sin8_3 : snd (root 8 1 3) = P707%R.
Proof. apply (sin_high_case 8 3 1 4); field. Qed.
Lemma cos9_1 : fst (root 9 1 1) = P766%R.
Proof. apply (cos_plus_case 9 1 5 18); [lra|lra|field]. Qed.
Lemma cos9_2 : fst (root 9 1 2) = P173%R.
Proof. apply (cos_plus_case 9 2 1 18); [lra|lra|field]. Qed.
Lemma cos9_4 : fst (root 9 1 4) = (- P939)%R.
Proof. apply (cos_minus_case 9 4 7 18); [lra|lra|field]. Qed.
Lemma sin9_1 : snd (root 9 1 1) = P642%R.
Proof. apply (sin_low_case 9 1 2 9); field. Qed.
Lemma sin9_2 : snd (root 9 1 2) = P984%R.
Proof. apply (sin_low_case 9 2 4 9); field. Qed.
Lemma sin9_3 : snd (root 9 1 3) = P866%R.
Proof. apply (sin_high_case 9 3 1 3); field. Qed.
Lemma sin9_4 : snd (root 9 1 4) = P342%R.
Proof. apply (sin_high_case 9 4 1 9); field. Qed.
Lemma cos11_1 : fst (root 11 1 1) = P841%R.
Proof. apply (cos_plus_case 11 1 7 22); [lra|lra|field]. Qed.
Lemma cos11_2 : fst (root 11 1 2) = P415%R.
Proof. apply (cos_plus_case 11 2 3 22); [lra|lra|field]. Qed.
Lemma cos11_3 : fst (root 11 1 3) = (- P142)%R.
Proof. apply (cos_minus_case 11 3 1 22); [lra|lra|field]. Qed.
Lemma cos11_4 : fst (root 11 1 4) = (- P654)%R.
Proof. apply (cos_minus_case 11 4 5 22); [lra|lra|field]. Qed.
Lemma cos11_5 : fst (root 11 1 5) = (- P959)%R.
Proof. apply (cos_minus_case 11 5 9 22); [lra|lra|field]. Qed.
Lemma sin11_1 : snd (root 11 1 1) = P540%R.
Proof. apply (sin_low_case 11 1 2 11); field. Qed.
Lemma sin11_2 : snd (root 11 1 2) = P909%R.
Proof. apply (sin_low_case 11 2 4 11); field. Qed.
Lemma sin11_3 : snd (root 11 1 3) = P989%R.
Proof. apply (sin_high_case 11 3 5 11); field. Qed.
Lemma sin11_4 : snd (root 11 1 4) = P755%R.
Proof. apply (sin_high_case 11 4 3 11); field. Qed.
Lemma sin11_5 : snd (root 11 1 5) = P281%R.
Proof. apply (sin_high_case 11 5 1 11); field. Qed.
Lemma cos13_1 : fst (root 13 1 1) = P885%R.
Proof. apply (cos_plus_case 13 1 9 26); [lra|lra|field]. Qed.
Lemma cos13_2 : fst (root 13 1 2) = P568%R.
Proof. apply (cos_plus_case 13 2 5 26); [lra|lra|field]. Qed.
Lemma cos13_3 : fst (root 13 1 3) = P120%R.
Proof. apply (cos_plus_case 13 3 1 26); [lra|lra|field]. Qed.
Lemma cos13_4 : fst (root 13 1 4) = (- P354)%R.
Proof. apply (cos_minus_case 13 4 3 26); [lra|lra|field]. Qed.
Lemma cos13_5 : fst (root 13 1 5) = (- P748)%R.
Proof. apply (cos_minus_case 13 5 7 26); [lra|lra|field]. Qed.
Lemma cos13_6 : fst (root 13 1 6) = (- P970)%R.
Proof. apply (cos_minus_case 13 6 11 26); [lra|lra|field]. Qed.
Lemma sin13_1 : snd (root 13 1 1) = P464%R.
Proof. apply (sin_low_case 13 1 2 13); field. Qed.
Lemma sin13_2 : snd (root 13 1 2) = P822%R.
Proof. apply (sin_low_case 13 2 4 13); field. Qed.
Lemma sin13_3 : snd (root 13 1 3) = P992%R.
Proof. apply (sin_low_case 13 3 6 13); field. Qed.
Lemma sin13_4 : snd (root 13 1 4) = P935%R.
Proof. apply (sin_high_case 13 4 5 13); field. Qed.
Lemma sin13_5 : snd (root 13 1 5) = P663%R.
Proof. apply (sin_high_case 13 5 3 13); field. Qed.
Lemma sin13_6 : snd (root 13 1 6) = P239%R.
Proof. apply (sin_high_case 13 6 1 13); field. Qed.
Lemma cos16_1 : fst (root 16 1 1) = P923%R.
Proof. apply (cos_plus_case 16 1 3 8); [lra|lra|field]. Qed.
Lemma cos16_2 : fst (root 16 1 2) = P707%R.
Proof. apply (cos_plus_case 16 2 1 4); [lra|lra|field]. Qed.
Lemma cos16_3 : fst (root 16 1 3) = P382%R.
Proof. apply (cos_plus_case 16 3 1 8); [lra|lra|field]. Qed.
Lemma cos16_5 : fst (root 16 1 5) = (- P382)%R.
Proof. apply (cos_minus_case 16 5 1 8); [lra|lra|field]. Qed.
Lemma cos16_6 : fst (root 16 1 6) = (- P707)%R.
Proof. apply (cos_minus_case 16 6 1 4); [lra|lra|field]. Qed.
Lemma cos16_7 : fst (root 16 1 7) = (- P923)%R.
Proof. apply (cos_minus_case 16 7 3 8); [lra|lra|field]. Qed.
Lemma sin16_1 : snd (root 16 1 1) = P382%R.
Proof. apply (sin_low_case 16 1 1 8); field. Qed.
Lemma sin16_2 : snd (root 16 1 2) = P707%R.
Proof. apply (sin_low_case 16 2 1 4); field. Qed.
Lemma sin16_3 : snd (root 16 1 3) = P923%R.
Proof. apply (sin_low_case 16 3 3 8); field. Qed.
Lemma sin16_5 : snd (root 16 1 5) = P923%R.
Proof. apply (sin_high_case 16 5 3 8); field. Qed.
Lemma sin16_6 : snd (root 16 1 6) = P707%R.
Proof. apply (sin_high_case 16 6 1 4); field. Qed.
Lemma sin16_7 : snd (root 16 1 7) = P382%R.
Proof. apply (sin_high_case 16 7 1 8); field. Qed.
Lemma root4_1 : root 4 1 1 = (0, 1)%R.
Proof. apply root_quarter; lia. Qed.
Lemma root8_2 : root 8 1 2 = (0, 1)%R.
Proof. apply root_quarter; lia. Qed.
Lemma root16_4 : root 16 1 4 = (0, 1)%R.
Proof. apply root_quarter; lia. Qed.
Lemma root8_4 : root 8 1 4 = (-1, 0)%R.
Proof. rewrite root_half by lia. unfold copp, c1. cbn. f_equal; ring. Qed.

Lemma cos5_1 : fst (root 5 1 1) = sin (1 * PI / 10).
Proof. apply (cos_plus_case 5 1 1 10); [lra|lra|field]. Qed.
Lemma sum5 : (fst (root 5 1 1) + fst (root 5 1 2) = - / 2)%R.
Proof.
  pose proof (total_root_zero 5 1 1 ltac:(auto) ltac:(lia) ltac:(discriminate)) as H. change (Z.to_nat 5) with 5%nat in H. cbn [total] in H. change (Z.of_nat 0) with 0 in H. change (Z.of_nat 1) with 1 in H. change (Z.of_nat 2) with 2 in H. change (Z.of_nat 3) with 3 in H. change (Z.of_nat 4) with 4 in H.
  rewrite !Z.mul_1_r, root_0 in H. rewrite (root_refl 5 3 2), (root_refl 5 4 1) in H by (lia || reflexivity). apply (f_equal fst) in H. unfold plus, c0, c1, conj in H. cbn [fst snd] in H. lra.
Qed.
Ltac reduce := repeat match goal with |- context [root ?f 1 (?a * ?b)] =>
  let k := eval cbv in ((a * b) mod f) in let h := eval cbv in (f <? 2 * k) in
  match h with true => let k' := eval cbv in (f - k) in rewrite (root_refl f (a * b) k') by (lia || reflexivity) | false => rewrite (root_eq f (a * b) k) by (lia || reflexivity) end end;
  unfold conj; cbn [fst snd].

Lemma coeffs3_ok mu : In mu [1; 2] -> coeffs3 mu = (snd (root 3 1 (mu * 1)))%R.
Proof.
  intros H; repeat (destruct H as [<-|H]; [unfold coeffs3; cbn [Z.eqb Pos.eqb]; reduce; rewrite ?sin3_1; cbn [fst snd]; repeat f_equal; try ring|]); destruct H.
Qed.
Lemma coeffs4_ok mu : In mu [1; 3] -> coeffs4 mu = (snd (root 4 1 (mu * 1)))%R.
Proof.
  intros H; repeat (destruct H as [<-|H]; [unfold coeffs4; cbn [Z.eqb Pos.eqb]; reduce; rewrite ?root4_1; cbn [fst snd]; repeat f_equal; try ring|]); destruct H.
Qed.
Lemma coeffs5_ok mu : In mu [1; 2; 3; 4] -> coeffs5 mu = (fst (root 5 1 (mu * 1)) + / 4, snd (root 5 1 (mu * 1)), snd (root 5 1 (mu * 2)))%R.
Proof.
  intros H; repeat (destruct H as [<-|H]; [unfold coeffs5; cbn [Z.eqb Pos.eqb]; reduce; rewrite ?sin5_1, ?sin5_2; cbn [fst snd]; apply f_equal2; [apply f_equal2; [pose proof sum5; pose proof cos5_1; unfold P559; lra|ring]|ring]|]); destruct H.
Qed.
Lemma coeffs7_ok mu : In mu [1; 2; 3; 4; 5; 6] -> coeffs7 mu = (fst (root 7 1 (mu * 1)), fst (root 7 1 (mu * 2)), fst (root 7 1 (mu * 3)), snd (root 7 1 (mu * 1)), snd (root 7 1 (mu * 2)), snd (root 7 1 (mu * 3)))%R.
Proof.
  intros H; repeat (destruct H as [<-|H]; [unfold coeffs7; cbn [Z.eqb Pos.eqb]; reduce; rewrite ?cos7_1, ?cos7_2, ?cos7_3, ?sin7_1, ?sin7_2, ?sin7_3; cbn [fst snd]; repeat f_equal; try ring|]); destruct H.
Qed.
Lemma coeffs8_ok mu : In mu [1; 3; 5; 7] -> coeffs8 mu = (snd (root 8 1 (mu * 2)), fst (root 8 1 (mu * 1)))%R.
Proof.
  intros H; repeat (destruct H as [<-|H]; [unfold coeffs8; cbn [Z.eqb Pos.eqb]; reduce; rewrite ?cos8_1, ?cos8_3, ?sin8_1, ?sin8_3, ?root8_2; cbn [fst snd]; repeat f_equal; try ring|]); destruct H.
Qed.
Lemma coeffs9_ok mu : In mu [1; 2; 4; 5; 7; 8] -> coeffs9 mu = (snd (root 9 1 (mu * 3)), fst (root 9 1 (mu * 1)), snd (root 9 1 (mu * 1)), fst (root 9 1 (mu * 2)), snd (root 9 1 (mu * 2)))%R.
Proof.
  intros H; repeat (destruct H as [<-|H]; [unfold coeffs9; cbn [Z.eqb Pos.eqb]; reduce; rewrite ?cos9_1, ?cos9_2, ?cos9_4, ?sin9_1, ?sin9_2, ?sin9_3, ?sin9_4; cbn [fst snd]; repeat f_equal; try ring|]); destruct H.
Qed.
Lemma coeffs11_ok mu : In mu [1; 2; 3; 4; 5; 6; 7; 8; 9; 10] -> coeffs11 mu = (fst (root 11 1 (mu * 1)), fst (root 11 1 (mu * 2)), fst (root 11 1 (mu * 3)), fst (root 11 1 (mu * 4)), fst (root 11 1 (mu * 5)), snd (root 11 1 (mu * 1)), snd (root 11 1 (mu * 2)), snd (root 11 1 (mu * 3)), snd (root 11 1 (mu * 4)), snd (root 11 1 (mu * 5)))%R.
Proof.
  intros H; repeat (destruct H as [<-|H]; [unfold coeffs11; cbn [Z.eqb Pos.eqb]; reduce; rewrite ?cos11_1, ?cos11_2, ?cos11_3, ?cos11_4, ?cos11_5, ?sin11_1, ?sin11_2, ?sin11_3, ?sin11_4, ?sin11_5; cbn [fst snd]; repeat f_equal; try ring|]); destruct H.
Qed.
Lemma coeffs13_ok mu : In mu [1; 2; 3; 4; 5; 6; 7; 8; 9; 10; 11; 12] -> coeffs13 mu = (fst (root 13 1 (mu * 1)), fst (root 13 1 (mu * 2)), fst (root 13 1 (mu * 3)), fst (root 13 1 (mu * 4)), fst (root 13 1 (mu * 5)), fst (root 13 1 (mu * 6)), snd (root 13 1 (mu * 1)), snd (root 13 1 (mu * 2)), snd (root 13 1 (mu * 3)), snd (root 13 1 (mu * 4)), snd (root 13 1 (mu * 5)), snd (root 13 1 (mu * 6)))%R.
Proof.
  intros H; repeat (destruct H as [<-|H]; [unfold coeffs13; cbn [Z.eqb Pos.eqb]; reduce; rewrite ?cos13_1, ?cos13_2, ?cos13_3, ?cos13_4, ?cos13_5, ?cos13_6, ?sin13_1, ?sin13_2, ?sin13_3, ?sin13_4, ?sin13_5, ?sin13_6; cbn [fst snd]; repeat f_equal; try ring|]); destruct H.
Qed.
Lemma coeffs16_ok mu : In mu [1; 3; 5; 7; 9; 11; 13; 15] -> coeffs16 mu = (snd (root 16 1 (mu * 4)), fst (root 16 1 (mu * 1)), snd (root 16 1 (mu * 1)), fst (root 16 1 (mu * 2)))%R.
Proof.
  intros H; repeat (destruct H as [<-|H]; [unfold coeffs16; cbn [Z.eqb Pos.eqb]; reduce; rewrite ?cos16_1, ?cos16_2, ?cos16_3, ?cos16_5, ?cos16_6, ?cos16_7, ?sin16_1, ?sin16_2, ?sin16_3, ?sin16_5, ?sin16_6, ?sin16_7, ?root16_4; cbn [fst snd]; repeat f_equal; try ring|]); destruct H.
Qed.

(** the powers of a root *)
Section Powers.
Variables f mu : Z.
Hypothesis Hf : 0 < f.
Lemma power_mod e : root f 1 (mu * e) = root f 1 (mu * (e mod f)).
Proof. rewrite (root_eq f (mu * e) ((mu * (e mod f)) mod f)) by (lia || (rewrite Z.mul_mod_idemp_r by lia; reflexivity)). now rewrite root_mod by (auto || lia). Qed.
Lemma power_refl r : root f 1 (mu * (f - r)) = conj (root f 1 (mu * r)).
Proof. apply root_refl; [lia|]. replace (mu * (f - r) + mu * r) with (mu * f) by ring. apply Z.mod_mul. lia. Qed.
Lemma power_sub r r' : root f 1 (mu * (r - r')) = cmul (root f 1 (mu * r)) (conj (root f 1 (mu * r'))).
Proof. rewrite Z.mul_sub_distr_l. unfold Z.sub. rewrite root_add, root_opp by auto. reflexivity. Qed.
Lemma power_0 : root f 1 (mu * 0) = c1.
Proof. rewrite Z.mul_0_r. apply root_0. Qed.
Lemma power_unit r : (fst (root f 1 (mu * r)) * fst (root f 1 (mu * r)) + snd (root f 1 (mu * r)) * snd (root f 1 (mu * r)) = 1)%R.
Proof.
  pose proof (power_sub r r) as H. rewrite Z.sub_diag, power_0 in H. apply (f_equal fst) in H. unfold cmul, conj, c1 in H. cbn [fst snd] in H. lra.
Qed.
End Powers.
(** the sum of all powers *)
Lemma power_sum f mu : 0 < f -> mu mod f <> 0 -> total (Z.to_nat f) (fun r => root f 1 (mu * r)) = c0.
Proof. intros Hf H. rewrite <- (total_root_zero f 1 mu (or_introl eq_refl) Hf H). apply total_ext. intros r _. f_equal. ring. Qed.
Lemma table_case f mu (t : list C) : 0 < f -> (forall r, 0 <= r < f -> root f 1 (mu * r) = nth (Z.to_nat r) t c0) -> forall e, root f 1 (mu * e) = nth (Z.to_nat (e mod f)) t c0.
Proof. intros Hf H e. rewrite power_mod by exact Hf. apply H, Z.mod_pos_bound, Hf. Qed.
Ltac number_case := repeat match goal with |- context [Z.to_nat (Zpos ?p)] => let k := eval cbv in (Z.to_nat (Zpos p)) in change (Z.to_nat (Zpos p)) with k end; change (Z.to_nat 0) with 0%nat.
Ltac range_cases r Hr n := match n with O => exfalso; lia | S ?n' => let v := eval cbv in (Z.of_nat n') in destruct (Z.eq_dec r v) as [->|?]; [|range_cases r Hr n'] end.
Ltac index_case := repeat match goal with |- context [Z.to_nat (?e mod ?f)] => let k := eval cbv in (Z.to_nat (e mod f)) in change (Z.to_nat (e mod f)) with k end.
Ltac cell_case := index_case; cbn [nth]; unfold cadd, cmul, c1, conj; cbn [fst snd]; f_equal; first [ring | field].
Ltac cell_case9 c Q := index_case; cbn [nth]; unfold cadd, cmul, c1, conj; cbn [fst snd]; f_equal; first [ring [Q] | let E := fresh in assert (E : (4 * (c * c) = 3)%R) by lra; field_simplify_eq; ring [E]].
(** the transform of length f with rotation mu of the values of the cells *)
Definition rotated (f mu : Z) (z : Z -> C) : list C := map (fun k => total (Z.to_nat f) (fun q => cmul (z q) (root f 1 (mu * (q * k))))) (range 0 f).
Definition by_table (f : Z) (t : list C) (z : Z -> C) : list C := map (fun k => total (Z.to_nat f) (fun q => cmul (z q) (nth (Z.to_nat ((q * k) mod f)) t c0))) (range 0 f).
Lemma rotated_table f mu t z : (forall e, root f 1 (mu * e) = nth (Z.to_nat (e mod f)) t c0) -> rotated f mu z = by_table f t z.
Proof. intros H. apply map_ext. intros k. apply total_ext. intros q _. now rewrite H. Qed.

Lemma module2_ok mu z : In mu [1] -> module2 mu z = rotated 2 mu z.
Proof.
  intros [<-|[]]. rewrite (rotated_table 2 1 [c1; copp c1]).
  - unfold module2, by_table. change (range 0 2) with [0; 1]. change (Z.to_nat 2) with 2%nat. cbn [map total]. change plus with cadd. change (Z.of_nat 0) with 0. change (Z.of_nat 1) with 1. generalize (z 0); intros [z0r z0i]. generalize (z 1); intros [z1r z1i]. unfold copp. repeat (apply f_equal2; [cell_case|]); [..|reflexivity].
  - apply table_case; [lia|]. intros r Hr. range_cases r Hr 2%nat; number_case; cbn [nth]; [rewrite root_half by lia; reflexivity|apply power_0].
Qed.
Definition tab3 (b1 : R) : list C := [c1; ((- / 2 - (0), b1))%R; conj ((- / 2 - (0), b1))%R].
Lemma tab3_ok mu : In mu [1; 2] -> forall e, root 3 1 (mu * e) = nth (Z.to_nat (e mod 3)) (tab3 (snd (root 3 1 (mu * 1)))) c0.
Proof.
  intros Hmu.
  assert (R1 : root 3 1 (mu * 1) = (- / 2 - (0), snd (root 3 1 (mu * 1)))%R).
  { apply C_eq; [|reflexivity]. cbn [fst]. pose proof (power_sum 3 mu ltac:(lia)) as H. specialize (H ltac:(repeat (destruct Hmu as [<-|Hmu]; [discriminate|]); destruct Hmu)). change (Z.to_nat 3) with 3%nat in H. cbn [total] in H. change (Z.of_nat 0) with 0 in H. change (Z.of_nat 1) with 1 in H. change (Z.of_nat 2) with 2 in H.
    rewrite power_0 in H. rewrite (power_refl 3 mu ltac:(lia) 1 : root 3 1 (mu * 2) = _) in H. apply (f_equal fst) in H. unfold plus, c0, c1, conj in H. cbn [fst snd] in H. lra. }
  apply table_case; [lia|]. intros r Hr. range_cases r Hr 3%nat; number_case; cbn [nth tab3].
  - transitivity (conj (root 3 1 (mu * 1))); [exact (power_refl 3 mu ltac:(lia) 1)|f_equal; exact R1].
  - exact R1.
  - apply power_0.
Qed.
Lemma cons3 {T} (p0 p1 p2 q0 q1 q2 : T) : p0 = q0 -> p1 = q1 -> p2 = q2 -> [p0; p1; p2] = [q0; q1; q2].
Proof. intros; subst; reflexivity. Qed.
Lemma module3_ok mu z : In mu [1; 2] -> module3 mu z = rotated 3 mu z.
Proof.
  intros Hmu. rewrite (rotated_table 3 mu _ z (tab3_ok mu Hmu)). unfold module3. rewrite (coeffs3_ok mu Hmu).
  pose proof (tab3_ok mu Hmu 1) as T. change (Z.to_nat (1 mod 3)) with 1%nat in T. cbn [nth tab3] in T. rewrite ?(f_equal fst T). clear T. cbn [fst snd].
  generalize (snd (root 3 1 (mu * 1))). intros b1.
  unfold by_table. change (range 0 3) with [0; 1; 2]. change (Z.to_nat 3) with 3%nat. cbn [map total].
  change (Z.of_nat 0) with 0. change (Z.of_nat 1) with 1. change (Z.of_nat 2) with 2.
  generalize (z 0); intros [z0r z0i]. generalize (z 1); intros [z1r z1i]. generalize (z 2); intros [z2r z2i].
  cbv -[Rplus Rmult Ropp Rminus Rinv IZR Rdiv]. apply cons3; apply f_equal2; ring.
Qed.
Definition tab4 (c : R) : list C := [c1; ((0, c))%R; ((-1, 0))%R; conj ((0, c))%R].
Lemma tab4_ok mu : In mu [1; 3] -> forall e, root 4 1 (mu * e) = nth (Z.to_nat (e mod 4)) (tab4 (snd (root 4 1 (mu * 1)))) c0.
Proof.
  intros Hmu.
  assert (R1 : root 4 1 (mu * 1) = (0, snd (root 4 1 (mu * 1)))%R) by (repeat (destruct Hmu as [<-|Hmu]; [reduce; rewrite root4_1; cbn [fst snd]; f_equal; ring|]); destruct Hmu).
  assert (R2 : root 4 1 (mu * 2) = (-1, 0)%R) by (replace (mu * 2) with (mu * (3 - 1)) by ring; repeat (destruct Hmu as [<-|Hmu]; [rewrite (root_eq 4 _ 2) by (lia || reflexivity); rewrite root_half by lia; unfold copp, c1; cbn [fst snd]; f_equal; ring|]); destruct Hmu).
  apply table_case; [lia|]. intros r Hr. range_cases r Hr 4%nat; number_case; cbn [nth tab4].
  - transitivity (conj (root 4 1 (mu * 1))); [exact (power_refl 4 mu ltac:(lia) 1)|f_equal; exact R1].
  - exact R2.
  - exact R1.
  - apply power_0.
Qed.
Lemma cons4 {T} (p0 p1 p2 p3 q0 q1 q2 q3 : T) : p0 = q0 -> p1 = q1 -> p2 = q2 -> p3 = q3 -> [p0; p1; p2; p3] = [q0; q1; q2; q3].
Proof. intros; subst; reflexivity. Qed.
Lemma module4_ok mu z : In mu [1; 3] -> module4 mu z = rotated 4 mu z.
Proof.
  intros Hmu. rewrite (rotated_table 4 mu _ z (tab4_ok mu Hmu)). unfold module4. rewrite (coeffs4_ok mu Hmu).
  generalize (snd (root 4 1 (mu * 1))). intros c.
  unfold by_table. change (range 0 4) with [0; 1; 2; 3]. change (Z.to_nat 4) with 4%nat. cbn [map total].
  change (Z.of_nat 0) with 0. change (Z.of_nat 1) with 1. change (Z.of_nat 2) with 2. change (Z.of_nat 3) with 3.
  generalize (z 0); intros [z0r z0i]. generalize (z 1); intros [z1r z1i]. generalize (z 2); intros [z2r z2i]. generalize (z 3); intros [z3r z3i].
  cbv -[Rplus Rmult Ropp Rminus Rinv IZR Rdiv]. apply cons4; apply f_equal2; ring.
Qed.
Definition tab5 (a1 b1 b2 : R) : list C := [c1; ((a1, b1))%R; ((- / 2 - (a1), b2))%R; conj ((- / 2 - (a1), b2))%R; conj ((a1, b1))%R].
Lemma tab5_ok mu : In mu [1; 2; 3; 4] -> forall e, root 5 1 (mu * e) = nth (Z.to_nat (e mod 5)) (tab5 (fst (root 5 1 (mu * 1))) (snd (root 5 1 (mu * 1))) (snd (root 5 1 (mu * 2)))) c0.
Proof.
  intros Hmu.
  assert (R1 : root 5 1 (mu * 1) = (fst (root 5 1 (mu * 1)), snd (root 5 1 (mu * 1)))%R) by (destruct (root 5 1 (mu * 1)); reflexivity).
  assert (R2 : root 5 1 (mu * 2) = (- / 2 - (fst (root 5 1 (mu * 1))), snd (root 5 1 (mu * 2)))%R).
  { apply C_eq; [|reflexivity]. cbn [fst]. pose proof (power_sum 5 mu ltac:(lia)) as H. specialize (H ltac:(repeat (destruct Hmu as [<-|Hmu]; [discriminate|]); destruct Hmu)). change (Z.to_nat 5) with 5%nat in H. cbn [total] in H. change (Z.of_nat 0) with 0 in H. change (Z.of_nat 1) with 1 in H. change (Z.of_nat 2) with 2 in H. change (Z.of_nat 3) with 3 in H. change (Z.of_nat 4) with 4 in H.
    rewrite power_0 in H. rewrite (power_refl 5 mu ltac:(lia) 2 : root 5 1 (mu * 3) = _) in H. rewrite (power_refl 5 mu ltac:(lia) 1 : root 5 1 (mu * 4) = _) in H. apply (f_equal fst) in H. unfold plus, c0, c1, conj in H. cbn [fst snd] in H. lra. }
  apply table_case; [lia|]. intros r Hr. range_cases r Hr 5%nat; number_case; cbn [nth tab5].
  - transitivity (conj (root 5 1 (mu * 1))); [exact (power_refl 5 mu ltac:(lia) 1)|f_equal; exact R1].
  - transitivity (conj (root 5 1 (mu * 2))); [exact (power_refl 5 mu ltac:(lia) 2)|f_equal; exact R2].
  - exact R2.
  - exact R1.
  - apply power_0.
Qed.
Lemma cons5 {T} (p0 p1 p2 p3 p4 q0 q1 q2 q3 q4 : T) : p0 = q0 -> p1 = q1 -> p2 = q2 -> p3 = q3 -> p4 = q4 -> [p0; p1; p2; p3; p4] = [q0; q1; q2; q3; q4].
Proof. intros; subst; reflexivity. Qed.
Lemma module5_ok mu z : In mu [1; 2; 3; 4] -> module5 mu z = rotated 5 mu z.
Proof.
  intros Hmu. rewrite (rotated_table 5 mu _ z (tab5_ok mu Hmu)). unfold module5. rewrite (coeffs5_ok mu Hmu).
  pose proof (tab5_ok mu Hmu 2) as T. change (Z.to_nat (2 mod 5)) with 2%nat in T. cbn [nth tab5] in T. rewrite ?(f_equal fst T). clear T. cbn [fst snd].
  generalize (fst (root 5 1 (mu * 1))). intros a1.
  generalize (snd (root 5 1 (mu * 1))). intros b1.
  generalize (snd (root 5 1 (mu * 2))). intros b2.
  unfold by_table. change (range 0 5) with [0; 1; 2; 3; 4]. change (Z.to_nat 5) with 5%nat. cbn [map total].
  change (Z.of_nat 0) with 0. change (Z.of_nat 1) with 1. change (Z.of_nat 2) with 2. change (Z.of_nat 3) with 3. change (Z.of_nat 4) with 4.
  generalize (z 0); intros [z0r z0i]. generalize (z 1); intros [z1r z1i]. generalize (z 2); intros [z2r z2i]. generalize (z 3); intros [z3r z3i]. generalize (z 4); intros [z4r z4i].
  cbv -[Rplus Rmult Ropp Rminus Rinv IZR Rdiv]. apply cons5; apply f_equal2; field.
Qed.
Definition tab7 (a1 a2 b1 b2 b3 : R) : list C := [c1; ((a1, b1))%R; ((a2, b2))%R; ((- / 2 - (a1 + a2), b3))%R; conj ((- / 2 - (a1 + a2), b3))%R; conj ((a2, b2))%R; conj ((a1, b1))%R].
Lemma tab7_ok mu : In mu [1; 2; 3; 4; 5; 6] -> forall e, root 7 1 (mu * e) = nth (Z.to_nat (e mod 7)) (tab7 (fst (root 7 1 (mu * 1))) (fst (root 7 1 (mu * 2))) (snd (root 7 1 (mu * 1))) (snd (root 7 1 (mu * 2))) (snd (root 7 1 (mu * 3)))) c0.
Proof.
  intros Hmu.
  assert (R1 : root 7 1 (mu * 1) = (fst (root 7 1 (mu * 1)), snd (root 7 1 (mu * 1)))%R) by (destruct (root 7 1 (mu * 1)); reflexivity).
  assert (R2 : root 7 1 (mu * 2) = (fst (root 7 1 (mu * 2)), snd (root 7 1 (mu * 2)))%R) by (destruct (root 7 1 (mu * 2)); reflexivity).
  assert (R3 : root 7 1 (mu * 3) = (- / 2 - (fst (root 7 1 (mu * 1)) + fst (root 7 1 (mu * 2))), snd (root 7 1 (mu * 3)))%R).
  { apply C_eq; [|reflexivity]. cbn [fst]. pose proof (power_sum 7 mu ltac:(lia)) as H. specialize (H ltac:(repeat (destruct Hmu as [<-|Hmu]; [discriminate|]); destruct Hmu)). change (Z.to_nat 7) with 7%nat in H. cbn [total] in H. change (Z.of_nat 0) with 0 in H. change (Z.of_nat 1) with 1 in H. change (Z.of_nat 2) with 2 in H. change (Z.of_nat 3) with 3 in H. change (Z.of_nat 4) with 4 in H. change (Z.of_nat 5) with 5 in H. change (Z.of_nat 6) with 6 in H.
    rewrite power_0 in H. rewrite (power_refl 7 mu ltac:(lia) 3 : root 7 1 (mu * 4) = _) in H. rewrite (power_refl 7 mu ltac:(lia) 2 : root 7 1 (mu * 5) = _) in H. rewrite (power_refl 7 mu ltac:(lia) 1 : root 7 1 (mu * 6) = _) in H. apply (f_equal fst) in H. unfold plus, c0, c1, conj in H. cbn [fst snd] in H. lra. }
  apply table_case; [lia|]. intros r Hr. range_cases r Hr 7%nat; number_case; cbn [nth tab7].
  - transitivity (conj (root 7 1 (mu * 1))); [exact (power_refl 7 mu ltac:(lia) 1)|f_equal; exact R1].
  - transitivity (conj (root 7 1 (mu * 2))); [exact (power_refl 7 mu ltac:(lia) 2)|f_equal; exact R2].
  - transitivity (conj (root 7 1 (mu * 3))); [exact (power_refl 7 mu ltac:(lia) 3)|f_equal; exact R3].
  - exact R3.
  - exact R2.
  - exact R1.
  - apply power_0.
Qed.
Lemma cons7 {T} (p0 p1 p2 p3 p4 p5 p6 q0 q1 q2 q3 q4 q5 q6 : T) : p0 = q0 -> p1 = q1 -> p2 = q2 -> p3 = q3 -> p4 = q4 -> p5 = q5 -> p6 = q6 -> [p0; p1; p2; p3; p4; p5; p6] = [q0; q1; q2; q3; q4; q5; q6].
Proof. intros; subst; reflexivity. Qed.
Lemma module7_ok mu z : In mu [1; 2; 3; 4; 5; 6] -> module7 mu z = rotated 7 mu z.
Proof.
  intros Hmu. rewrite (rotated_table 7 mu _ z (tab7_ok mu Hmu)). unfold module7. rewrite (coeffs7_ok mu Hmu).
  pose proof (tab7_ok mu Hmu 3) as T. change (Z.to_nat (3 mod 7)) with 3%nat in T. cbn [nth tab7] in T. rewrite ?(f_equal fst T). clear T. cbn [fst snd].
  generalize (fst (root 7 1 (mu * 1))). intros a1.
  generalize (fst (root 7 1 (mu * 2))). intros a2.
  generalize (snd (root 7 1 (mu * 1))). intros b1.
  generalize (snd (root 7 1 (mu * 2))). intros b2.
  generalize (snd (root 7 1 (mu * 3))). intros b3.
  unfold by_table. change (range 0 7) with [0; 1; 2; 3; 4; 5; 6]. change (Z.to_nat 7) with 7%nat. cbn [map total].
  change (Z.of_nat 0) with 0. change (Z.of_nat 1) with 1. change (Z.of_nat 2) with 2. change (Z.of_nat 3) with 3. change (Z.of_nat 4) with 4. change (Z.of_nat 5) with 5. change (Z.of_nat 6) with 6.
  generalize (z 0); intros [z0r z0i]. generalize (z 1); intros [z1r z1i]. generalize (z 2); intros [z2r z2i]. generalize (z 3); intros [z3r z3i]. generalize (z 4); intros [z4r z4i]. generalize (z 5); intros [z5r z5i]. generalize (z 6); intros [z6r z6i].
  cbv -[Rplus Rmult Ropp Rminus Rinv IZR Rdiv]. apply cons7; apply f_equal2; ring.
Qed.
Definition tab8 (a c : R) : list C := [c1; ((a, c * a))%R; ((0, c))%R; ((- a, c * a))%R; ((-1, 0))%R; conj ((- a, c * a))%R; conj ((0, c))%R; conj ((a, c * a))%R].
Lemma tab8_ok mu : In mu [1; 3; 5; 7] -> forall e, root 8 1 (mu * e) = nth (Z.to_nat (e mod 8)) (tab8 (fst (root 8 1 (mu * 1))) (snd (root 8 1 (mu * 2)))) c0.
Proof.
  intros Hmu.
  assert (R2 : root 8 1 (mu * 2) = (0, snd (root 8 1 (mu * 2)))%R) by (repeat (destruct Hmu as [<-|Hmu]; [reduce; rewrite root8_2; cbn [fst snd]; f_equal; ring|]); destruct Hmu).
  assert (R4 : root 8 1 (mu * 4) = (-1, 0)%R) by (repeat (destruct Hmu as [<-|Hmu]; [rewrite (root_eq 8 _ 4) by (lia || reflexivity); rewrite root_half by lia; unfold copp, c1; cbn [fst snd]; f_equal; ring|]); destruct Hmu).
  assert (R1 : root 8 1 (mu * 1) = (fst (root 8 1 (mu * 1)), snd (root 8 1 (mu * 2)) * fst (root 8 1 (mu * 1)))%R).
  { pose proof (power_sub 8 mu 2 1) as H. rewrite R2 in H. change (2 - 1) with 1 in H. destruct (root 8 1 (mu * 1)) as [x y]. apply (f_equal snd) in H. unfold cmul, conj in H. cbn [fst snd] in *. f_equal. lra. }
  assert (R3 : root 8 1 (mu * 3) = (- fst (root 8 1 (mu * 1)), snd (root 8 1 (mu * 2)) * fst (root 8 1 (mu * 1)))%R).
  { pose proof (power_sub 8 mu 4 1) as H. rewrite R4, R1 in H. change (4 - 1) with 3 in H. rewrite H. unfold cmul, conj. cbn [fst snd]. f_equal; ring. }
  apply table_case; [lia|]. intros r Hr. range_cases r Hr 8%nat; number_case; cbn [nth tab8].
  - transitivity (conj (root 8 1 (mu * 1))); [exact (power_refl 8 mu ltac:(lia) 1)|f_equal; exact R1].
  - transitivity (conj (root 8 1 (mu * 2))); [exact (power_refl 8 mu ltac:(lia) 2)|f_equal; exact R2].
  - transitivity (conj (root 8 1 (mu * 3))); [exact (power_refl 8 mu ltac:(lia) 3)|f_equal; exact R3].
  - exact R4.
  - exact R3.
  - exact R2.
  - exact R1.
  - apply power_0.
Qed.
Lemma cons8 {T} (p0 p1 p2 p3 p4 p5 p6 p7 q0 q1 q2 q3 q4 q5 q6 q7 : T) : p0 = q0 -> p1 = q1 -> p2 = q2 -> p3 = q3 -> p4 = q4 -> p5 = q5 -> p6 = q6 -> p7 = q7 -> [p0; p1; p2; p3; p4; p5; p6; p7] = [q0; q1; q2; q3; q4; q5; q6; q7].
Proof. intros; subst; reflexivity. Qed.
Lemma module8_ok mu z : In mu [1; 3; 5; 7] -> module8 mu z = rotated 8 mu z.
Proof.
  intros Hmu. rewrite (rotated_table 8 mu _ z (tab8_ok mu Hmu)). unfold module8. rewrite (coeffs8_ok mu Hmu).
  generalize (fst (root 8 1 (mu * 1))). intros a.
  generalize (snd (root 8 1 (mu * 2))). intros c.
  unfold by_table. change (range 0 8) with [0; 1; 2; 3; 4; 5; 6; 7]. change (Z.to_nat 8) with 8%nat. cbn [map total].
  change (Z.of_nat 0) with 0. change (Z.of_nat 1) with 1. change (Z.of_nat 2) with 2. change (Z.of_nat 3) with 3. change (Z.of_nat 4) with 4. change (Z.of_nat 5) with 5. change (Z.of_nat 6) with 6. change (Z.of_nat 7) with 7.
  generalize (z 0); intros [z0r z0i]. generalize (z 1); intros [z1r z1i]. generalize (z 2); intros [z2r z2i]. generalize (z 3); intros [z3r z3i]. generalize (z 4); intros [z4r z4i]. generalize (z 5); intros [z5r z5i]. generalize (z 6); intros [z6r z6i]. generalize (z 7); intros [z7r z7i].
  cbv -[Rplus Rmult Ropp Rminus Rinv IZR Rdiv]. apply cons8; apply f_equal2; ring.
Qed.
Definition tab9 (a b c : R) : list C := [c1; ((a, b))%R; ((- a * / 2 + c * b, b * / 2 + c * a))%R; ((- / 2, c))%R; ((- a * / 2 - c * b, - b * / 2 + c * a))%R; conj ((- a * / 2 - c * b, - b * / 2 + c * a))%R; conj ((- / 2, c))%R; conj ((- a * / 2 + c * b, b * / 2 + c * a))%R; conj ((a, b))%R].
Lemma tab9_ok mu : In mu [1; 2; 4; 5; 7; 8] -> forall e, root 9 1 (mu * e) = nth (Z.to_nat (e mod 9)) (tab9 (fst (root 9 1 (mu * 1))) (snd (root 9 1 (mu * 1))) (snd (root 9 1 (mu * 3)))) c0.
Proof.
  intros Hmu.
  assert (R3 : root 9 1 (mu * 3) = (- / 2, snd (root 9 1 (mu * 3)))%R).
  { apply C_eq; [|reflexivity]. cbn [fst]. repeat (destruct Hmu as [<-|Hmu]; [reduce; apply root_third; lia|]); destruct Hmu. }
  assert (R1 : root 9 1 (mu * 1) = (fst (root 9 1 (mu * 1)), snd (root 9 1 (mu * 1)))%R) by (destruct (root 9 1 (mu * 1)); reflexivity).
  assert (R2 : root 9 1 (mu * 2) = (- fst (root 9 1 (mu * 1)) * / 2 + snd (root 9 1 (mu * 3)) * snd (root 9 1 (mu * 1)), snd (root 9 1 (mu * 1)) * / 2 + snd (root 9 1 (mu * 3)) * fst (root 9 1 (mu * 1)))%R).
  { change 2 with (3 - 1) at 1. rewrite power_sub, R3. unfold cmul, conj. cbn [fst snd]. f_equal; ring. }
  assert (R4 : root 9 1 (mu * 4) = (- fst (root 9 1 (mu * 1)) * / 2 - snd (root 9 1 (mu * 3)) * snd (root 9 1 (mu * 1)), - snd (root 9 1 (mu * 1)) * / 2 + snd (root 9 1 (mu * 3)) * fst (root 9 1 (mu * 1)))%R).
  { replace (mu * 4) with (mu * 3 + mu * 1) by ring. rewrite root_add by auto. rewrite R3 at 1. unfold cmul. cbn [fst snd]. f_equal; ring. }
  apply table_case; [lia|]. intros r Hr. range_cases r Hr 9%nat; number_case; cbn [nth tab9].
  - transitivity (conj (root 9 1 (mu * 1))); [exact (power_refl 9 mu ltac:(lia) 1)|f_equal; exact R1].
  - transitivity (conj (root 9 1 (mu * 2))); [exact (power_refl 9 mu ltac:(lia) 2)|f_equal; exact R2].
  - transitivity (conj (root 9 1 (mu * 3))); [exact (power_refl 9 mu ltac:(lia) 3)|f_equal; exact R3].
  - transitivity (conj (root 9 1 (mu * 4))); [exact (power_refl 9 mu ltac:(lia) 4)|f_equal; exact R4].
  - exact R4.
  - exact R3.
  - exact R2.
  - exact R1.
  - apply power_0.
Qed.
Lemma cons9 {T} (p0 p1 p2 p3 p4 p5 p6 p7 p8 q0 q1 q2 q3 q4 q5 q6 q7 q8 : T) : p0 = q0 -> p1 = q1 -> p2 = q2 -> p3 = q3 -> p4 = q4 -> p5 = q5 -> p6 = q6 -> p7 = q7 -> p8 = q8 -> [p0; p1; p2; p3; p4; p5; p6; p7; p8] = [q0; q1; q2; q3; q4; q5; q6; q7; q8].
Proof. intros; subst; reflexivity. Qed.
Lemma module9_ok mu z : In mu [1; 2; 4; 5; 7; 8] -> module9 mu z = rotated 9 mu z.
Proof.
  intros Hmu. rewrite (rotated_table 9 mu _ z (tab9_ok mu Hmu)). unfold module9. rewrite (coeffs9_ok mu Hmu).
  assert (Q : (snd (root 9 1 (mu * 3)) * snd (root 9 1 (mu * 3)) = 3 / 4)%R).
  { pose proof (power_unit 9 mu 3) as Q. pose proof (tab9_ok mu Hmu 3) as T. change (Z.to_nat (3 mod 9)) with 3%nat in T. cbn [nth tab9] in T. rewrite T in Q at 1 2. cbn [fst] in Q. lra. }
  pose proof (tab9_ok mu Hmu 2) as T. change (Z.to_nat (2 mod 9)) with 2%nat in T. cbn [nth tab9] in T. rewrite T. clear T. cbn [fst snd].
  generalize (fst (root 9 1 (mu * 1))). intros a.
  generalize (snd (root 9 1 (mu * 1))). intros b.
  revert Q. generalize (snd (root 9 1 (mu * 3))). intros c Q.
  unfold by_table. change (range 0 9) with [0; 1; 2; 3; 4; 5; 6; 7; 8]. change (Z.to_nat 9) with 9%nat. cbn [map total].
  change (Z.of_nat 0) with 0. change (Z.of_nat 1) with 1. change (Z.of_nat 2) with 2. change (Z.of_nat 3) with 3. change (Z.of_nat 4) with 4. change (Z.of_nat 5) with 5. change (Z.of_nat 6) with 6. change (Z.of_nat 7) with 7. change (Z.of_nat 8) with 8.
  generalize (z 0); intros [z0r z0i]. generalize (z 1); intros [z1r z1i]. generalize (z 2); intros [z2r z2i]. generalize (z 3); intros [z3r z3i]. generalize (z 4); intros [z4r z4i]. generalize (z 5); intros [z5r z5i]. generalize (z 6); intros [z6r z6i]. generalize (z 7); intros [z7r z7i]. generalize (z 8); intros [z8r z8i].
  cbv -[Rplus Rmult Ropp Rminus Rinv IZR Rdiv]. apply cons9; apply f_equal2; first [ring [Q] | let E := fresh in assert (E : (4 * (c * c) = 3)%R) by lra; field_simplify_eq; ring [E]].
Qed.
Definition tab11 (a1 a2 a3 a4 b1 b2 b3 b4 b5 : R) : list C := [c1; ((a1, b1))%R; ((a2, b2))%R; ((a3, b3))%R; ((a4, b4))%R; ((- / 2 - (a1 + a2 + a3 + a4), b5))%R; conj ((- / 2 - (a1 + a2 + a3 + a4), b5))%R; conj ((a4, b4))%R; conj ((a3, b3))%R; conj ((a2, b2))%R; conj ((a1, b1))%R].
Lemma tab11_ok mu : In mu [1; 2; 3; 4; 5; 6; 7; 8; 9; 10] -> forall e, root 11 1 (mu * e) = nth (Z.to_nat (e mod 11)) (tab11 (fst (root 11 1 (mu * 1))) (fst (root 11 1 (mu * 2))) (fst (root 11 1 (mu * 3))) (fst (root 11 1 (mu * 4))) (snd (root 11 1 (mu * 1))) (snd (root 11 1 (mu * 2))) (snd (root 11 1 (mu * 3))) (snd (root 11 1 (mu * 4))) (snd (root 11 1 (mu * 5)))) c0.
Proof.
  intros Hmu.
  assert (R1 : root 11 1 (mu * 1) = (fst (root 11 1 (mu * 1)), snd (root 11 1 (mu * 1)))%R) by (destruct (root 11 1 (mu * 1)); reflexivity).
  assert (R2 : root 11 1 (mu * 2) = (fst (root 11 1 (mu * 2)), snd (root 11 1 (mu * 2)))%R) by (destruct (root 11 1 (mu * 2)); reflexivity).
  assert (R3 : root 11 1 (mu * 3) = (fst (root 11 1 (mu * 3)), snd (root 11 1 (mu * 3)))%R) by (destruct (root 11 1 (mu * 3)); reflexivity).
  assert (R4 : root 11 1 (mu * 4) = (fst (root 11 1 (mu * 4)), snd (root 11 1 (mu * 4)))%R) by (destruct (root 11 1 (mu * 4)); reflexivity).
  assert (R5 : root 11 1 (mu * 5) = (- / 2 - (fst (root 11 1 (mu * 1)) + fst (root 11 1 (mu * 2)) + fst (root 11 1 (mu * 3)) + fst (root 11 1 (mu * 4))), snd (root 11 1 (mu * 5)))%R).
  { apply C_eq; [|reflexivity]. cbn [fst]. pose proof (power_sum 11 mu ltac:(lia)) as H. specialize (H ltac:(repeat (destruct Hmu as [<-|Hmu]; [discriminate|]); destruct Hmu)). change (Z.to_nat 11) with 11%nat in H. cbn [total] in H. change (Z.of_nat 0) with 0 in H. change (Z.of_nat 1) with 1 in H. change (Z.of_nat 2) with 2 in H. change (Z.of_nat 3) with 3 in H. change (Z.of_nat 4) with 4 in H. change (Z.of_nat 5) with 5 in H. change (Z.of_nat 6) with 6 in H. change (Z.of_nat 7) with 7 in H. change (Z.of_nat 8) with 8 in H. change (Z.of_nat 9) with 9 in H. change (Z.of_nat 10) with 10 in H.
    rewrite power_0 in H. rewrite (power_refl 11 mu ltac:(lia) 5 : root 11 1 (mu * 6) = _) in H. rewrite (power_refl 11 mu ltac:(lia) 4 : root 11 1 (mu * 7) = _) in H. rewrite (power_refl 11 mu ltac:(lia) 3 : root 11 1 (mu * 8) = _) in H. rewrite (power_refl 11 mu ltac:(lia) 2 : root 11 1 (mu * 9) = _) in H. rewrite (power_refl 11 mu ltac:(lia) 1 : root 11 1 (mu * 10) = _) in H. apply (f_equal fst) in H. unfold plus, c0, c1, conj in H. cbn [fst snd] in H. lra. }
  apply table_case; [lia|]. intros r Hr. range_cases r Hr 11%nat; number_case; cbn [nth tab11].
  - transitivity (conj (root 11 1 (mu * 1))); [exact (power_refl 11 mu ltac:(lia) 1)|f_equal; exact R1].
  - transitivity (conj (root 11 1 (mu * 2))); [exact (power_refl 11 mu ltac:(lia) 2)|f_equal; exact R2].
  - transitivity (conj (root 11 1 (mu * 3))); [exact (power_refl 11 mu ltac:(lia) 3)|f_equal; exact R3].
  - transitivity (conj (root 11 1 (mu * 4))); [exact (power_refl 11 mu ltac:(lia) 4)|f_equal; exact R4].
  - transitivity (conj (root 11 1 (mu * 5))); [exact (power_refl 11 mu ltac:(lia) 5)|f_equal; exact R5].
  - exact R5.
  - exact R4.
  - exact R3.
  - exact R2.
  - exact R1.
  - apply power_0.
Qed.
Lemma cons11 {T} (p0 p1 p2 p3 p4 p5 p6 p7 p8 p9 p10 q0 q1 q2 q3 q4 q5 q6 q7 q8 q9 q10 : T) : p0 = q0 -> p1 = q1 -> p2 = q2 -> p3 = q3 -> p4 = q4 -> p5 = q5 -> p6 = q6 -> p7 = q7 -> p8 = q8 -> p9 = q9 -> p10 = q10 -> [p0; p1; p2; p3; p4; p5; p6; p7; p8; p9; p10] = [q0; q1; q2; q3; q4; q5; q6; q7; q8; q9; q10].
Proof. intros; subst; reflexivity. Qed.
Lemma module11_ok mu z : In mu [1; 2; 3; 4; 5; 6; 7; 8; 9; 10] -> module11 mu z = rotated 11 mu z.
Proof.
  intros Hmu. rewrite (rotated_table 11 mu _ z (tab11_ok mu Hmu)). unfold module11. rewrite (coeffs11_ok mu Hmu).
  pose proof (tab11_ok mu Hmu 5) as T. change (Z.to_nat (5 mod 11)) with 5%nat in T. cbn [nth tab11] in T. rewrite ?(f_equal fst T). clear T. cbn [fst snd].
  generalize (fst (root 11 1 (mu * 1))). intros a1.
  generalize (fst (root 11 1 (mu * 2))). intros a2.
  generalize (fst (root 11 1 (mu * 3))). intros a3.
  generalize (fst (root 11 1 (mu * 4))). intros a4.
  generalize (snd (root 11 1 (mu * 1))). intros b1.
  generalize (snd (root 11 1 (mu * 2))). intros b2.
  generalize (snd (root 11 1 (mu * 3))). intros b3.
  generalize (snd (root 11 1 (mu * 4))). intros b4.
  generalize (snd (root 11 1 (mu * 5))). intros b5.
  unfold by_table. change (range 0 11) with [0; 1; 2; 3; 4; 5; 6; 7; 8; 9; 10]. change (Z.to_nat 11) with 11%nat. cbn [map total].
  change (Z.of_nat 0) with 0. change (Z.of_nat 1) with 1. change (Z.of_nat 2) with 2. change (Z.of_nat 3) with 3. change (Z.of_nat 4) with 4. change (Z.of_nat 5) with 5. change (Z.of_nat 6) with 6. change (Z.of_nat 7) with 7. change (Z.of_nat 8) with 8. change (Z.of_nat 9) with 9. change (Z.of_nat 10) with 10.
  generalize (z 0); intros [z0r z0i]. generalize (z 1); intros [z1r z1i]. generalize (z 2); intros [z2r z2i]. generalize (z 3); intros [z3r z3i]. generalize (z 4); intros [z4r z4i]. generalize (z 5); intros [z5r z5i]. generalize (z 6); intros [z6r z6i]. generalize (z 7); intros [z7r z7i]. generalize (z 8); intros [z8r z8i]. generalize (z 9); intros [z9r z9i]. generalize (z 10); intros [z10r z10i].
  cbv -[Rplus Rmult Ropp Rminus Rinv IZR Rdiv]. apply cons11; apply f_equal2; ring.
Qed.
Definition tab13 (a1 a2 a3 a4 a5 b1 b2 b3 b4 b5 b6 : R) : list C := [c1; ((a1, b1))%R; ((a2, b2))%R; ((a3, b3))%R; ((a4, b4))%R; ((a5, b5))%R; ((- / 2 - (a1 + a2 + a3 + a4 + a5), b6))%R; conj ((- / 2 - (a1 + a2 + a3 + a4 + a5), b6))%R; conj ((a5, b5))%R; conj ((a4, b4))%R; conj ((a3, b3))%R; conj ((a2, b2))%R; conj ((a1, b1))%R].
Lemma tab13_ok mu : In mu [1; 2; 3; 4; 5; 6; 7; 8; 9; 10; 11; 12] -> forall e, root 13 1 (mu * e) = nth (Z.to_nat (e mod 13)) (tab13 (fst (root 13 1 (mu * 1))) (fst (root 13 1 (mu * 2))) (fst (root 13 1 (mu * 3))) (fst (root 13 1 (mu * 4))) (fst (root 13 1 (mu * 5))) (snd (root 13 1 (mu * 1))) (snd (root 13 1 (mu * 2))) (snd (root 13 1 (mu * 3))) (snd (root 13 1 (mu * 4))) (snd (root 13 1 (mu * 5))) (snd (root 13 1 (mu * 6)))) c0.
Proof.
  intros Hmu.
  assert (R1 : root 13 1 (mu * 1) = (fst (root 13 1 (mu * 1)), snd (root 13 1 (mu * 1)))%R) by (destruct (root 13 1 (mu * 1)); reflexivity).
  assert (R2 : root 13 1 (mu * 2) = (fst (root 13 1 (mu * 2)), snd (root 13 1 (mu * 2)))%R) by (destruct (root 13 1 (mu * 2)); reflexivity).
  assert (R3 : root 13 1 (mu * 3) = (fst (root 13 1 (mu * 3)), snd (root 13 1 (mu * 3)))%R) by (destruct (root 13 1 (mu * 3)); reflexivity).
  assert (R4 : root 13 1 (mu * 4) = (fst (root 13 1 (mu * 4)), snd (root 13 1 (mu * 4)))%R) by (destruct (root 13 1 (mu * 4)); reflexivity).
  assert (R5 : root 13 1 (mu * 5) = (fst (root 13 1 (mu * 5)), snd (root 13 1 (mu * 5)))%R) by (destruct (root 13 1 (mu * 5)); reflexivity).
  assert (R6 : root 13 1 (mu * 6) = (- / 2 - (fst (root 13 1 (mu * 1)) + fst (root 13 1 (mu * 2)) + fst (root 13 1 (mu * 3)) + fst (root 13 1 (mu * 4)) + fst (root 13 1 (mu * 5))), snd (root 13 1 (mu * 6)))%R).
  { apply C_eq; [|reflexivity]. cbn [fst]. pose proof (power_sum 13 mu ltac:(lia)) as H. specialize (H ltac:(repeat (destruct Hmu as [<-|Hmu]; [discriminate|]); destruct Hmu)). change (Z.to_nat 13) with 13%nat in H. cbn [total] in H. change (Z.of_nat 0) with 0 in H. change (Z.of_nat 1) with 1 in H. change (Z.of_nat 2) with 2 in H. change (Z.of_nat 3) with 3 in H. change (Z.of_nat 4) with 4 in H. change (Z.of_nat 5) with 5 in H. change (Z.of_nat 6) with 6 in H. change (Z.of_nat 7) with 7 in H. change (Z.of_nat 8) with 8 in H. change (Z.of_nat 9) with 9 in H. change (Z.of_nat 10) with 10 in H. change (Z.of_nat 11) with 11 in H. change (Z.of_nat 12) with 12 in H.
    rewrite power_0 in H. rewrite (power_refl 13 mu ltac:(lia) 6 : root 13 1 (mu * 7) = _) in H. rewrite (power_refl 13 mu ltac:(lia) 5 : root 13 1 (mu * 8) = _) in H. rewrite (power_refl 13 mu ltac:(lia) 4 : root 13 1 (mu * 9) = _) in H. rewrite (power_refl 13 mu ltac:(lia) 3 : root 13 1 (mu * 10) = _) in H. rewrite (power_refl 13 mu ltac:(lia) 2 : root 13 1 (mu * 11) = _) in H. rewrite (power_refl 13 mu ltac:(lia) 1 : root 13 1 (mu * 12) = _) in H. apply (f_equal fst) in H. unfold plus, c0, c1, conj in H. cbn [fst snd] in H. lra. }
  apply table_case; [lia|]. intros r Hr. range_cases r Hr 13%nat; number_case; cbn [nth tab13].
  - transitivity (conj (root 13 1 (mu * 1))); [exact (power_refl 13 mu ltac:(lia) 1)|f_equal; exact R1].
  - transitivity (conj (root 13 1 (mu * 2))); [exact (power_refl 13 mu ltac:(lia) 2)|f_equal; exact R2].
  - transitivity (conj (root 13 1 (mu * 3))); [exact (power_refl 13 mu ltac:(lia) 3)|f_equal; exact R3].
  - transitivity (conj (root 13 1 (mu * 4))); [exact (power_refl 13 mu ltac:(lia) 4)|f_equal; exact R4].
  - transitivity (conj (root 13 1 (mu * 5))); [exact (power_refl 13 mu ltac:(lia) 5)|f_equal; exact R5].
  - transitivity (conj (root 13 1 (mu * 6))); [exact (power_refl 13 mu ltac:(lia) 6)|f_equal; exact R6].
  - exact R6.
  - exact R5.
  - exact R4.
  - exact R3.
  - exact R2.
  - exact R1.
  - apply power_0.
Qed.
Lemma cons13 {T} (p0 p1 p2 p3 p4 p5 p6 p7 p8 p9 p10 p11 p12 q0 q1 q2 q3 q4 q5 q6 q7 q8 q9 q10 q11 q12 : T) : p0 = q0 -> p1 = q1 -> p2 = q2 -> p3 = q3 -> p4 = q4 -> p5 = q5 -> p6 = q6 -> p7 = q7 -> p8 = q8 -> p9 = q9 -> p10 = q10 -> p11 = q11 -> p12 = q12 -> [p0; p1; p2; p3; p4; p5; p6; p7; p8; p9; p10; p11; p12] = [q0; q1; q2; q3; q4; q5; q6; q7; q8; q9; q10; q11; q12].
Proof. intros; subst; reflexivity. Qed.
Lemma module13_ok mu z : In mu [1; 2; 3; 4; 5; 6; 7; 8; 9; 10; 11; 12] -> module13 mu z = rotated 13 mu z.
Proof.
  intros Hmu. rewrite (rotated_table 13 mu _ z (tab13_ok mu Hmu)). unfold module13. rewrite (coeffs13_ok mu Hmu).
  pose proof (tab13_ok mu Hmu 6) as T. change (Z.to_nat (6 mod 13)) with 6%nat in T. cbn [nth tab13] in T. rewrite ?(f_equal fst T). clear T. cbn [fst snd].
  generalize (fst (root 13 1 (mu * 1))). intros a1.
  generalize (fst (root 13 1 (mu * 2))). intros a2.
  generalize (fst (root 13 1 (mu * 3))). intros a3.
  generalize (fst (root 13 1 (mu * 4))). intros a4.
  generalize (fst (root 13 1 (mu * 5))). intros a5.
  generalize (snd (root 13 1 (mu * 1))). intros b1.
  generalize (snd (root 13 1 (mu * 2))). intros b2.
  generalize (snd (root 13 1 (mu * 3))). intros b3.
  generalize (snd (root 13 1 (mu * 4))). intros b4.
  generalize (snd (root 13 1 (mu * 5))). intros b5.
  generalize (snd (root 13 1 (mu * 6))). intros b6.
  unfold by_table. change (range 0 13) with [0; 1; 2; 3; 4; 5; 6; 7; 8; 9; 10; 11; 12]. change (Z.to_nat 13) with 13%nat. cbn [map total].
  change (Z.of_nat 0) with 0. change (Z.of_nat 1) with 1. change (Z.of_nat 2) with 2. change (Z.of_nat 3) with 3. change (Z.of_nat 4) with 4. change (Z.of_nat 5) with 5. change (Z.of_nat 6) with 6. change (Z.of_nat 7) with 7. change (Z.of_nat 8) with 8. change (Z.of_nat 9) with 9. change (Z.of_nat 10) with 10. change (Z.of_nat 11) with 11. change (Z.of_nat 12) with 12.
  generalize (z 0); intros [z0r z0i]. generalize (z 1); intros [z1r z1i]. generalize (z 2); intros [z2r z2i]. generalize (z 3); intros [z3r z3i]. generalize (z 4); intros [z4r z4i]. generalize (z 5); intros [z5r z5i]. generalize (z 6); intros [z6r z6i]. generalize (z 7); intros [z7r z7i]. generalize (z 8); intros [z8r z8i]. generalize (z 9); intros [z9r z9i]. generalize (z 10); intros [z10r z10i]. generalize (z 11); intros [z11r z11i]. generalize (z 12); intros [z12r z12i].
  cbv -[Rplus Rmult Ropp Rminus Rinv IZR Rdiv]. apply cons13; apply f_equal2; ring.
Qed.
Definition tab16 (a b d c : R) : list C := [c1; ((a, b))%R; ((d, c * d))%R; ((c * b, c * a))%R; ((0, c))%R; ((- (c * b), c * a))%R; ((- d, c * d))%R; ((- a, b))%R; ((-1, 0))%R; conj ((- a, b))%R; conj ((- d, c * d))%R; conj ((- (c * b), c * a))%R; conj ((0, c))%R; conj ((c * b, c * a))%R; conj ((d, c * d))%R; conj ((a, b))%R].
Lemma tab16_ok mu : In mu [1; 3; 5; 7; 9; 11; 13; 15] -> forall e, root 16 1 (mu * e) = nth (Z.to_nat (e mod 16)) (tab16 (fst (root 16 1 (mu * 1))) (snd (root 16 1 (mu * 1))) (fst (root 16 1 (mu * 2))) (snd (root 16 1 (mu * 4)))) c0.
Proof.
  intros Hmu.
  assert (R4 : root 16 1 (mu * 4) = (0, snd (root 16 1 (mu * 4)))%R) by (repeat (destruct Hmu as [<-|Hmu]; [reduce; rewrite root16_4; cbn [fst snd]; f_equal; ring|]); destruct Hmu).
  assert (R8 : root 16 1 (mu * 8) = (-1, 0)%R) by (repeat (destruct Hmu as [<-|Hmu]; [rewrite (root_eq 16 _ 8) by (lia || reflexivity); rewrite root_half by lia; unfold copp, c1; cbn [fst snd]; f_equal; ring|]); destruct Hmu).
  assert (R1 : root 16 1 (mu * 1) = (fst (root 16 1 (mu * 1)), snd (root 16 1 (mu * 1)))%R) by (destruct (root 16 1 (mu * 1)); reflexivity).
  assert (R2 : root 16 1 (mu * 2) = (fst (root 16 1 (mu * 2)), snd (root 16 1 (mu * 4)) * fst (root 16 1 (mu * 2)))%R).
  { pose proof (power_sub 16 mu 4 2) as H. rewrite R4 in H. change (4 - 2) with 2 in H. destruct (root 16 1 (mu * 2)) as [x y]. apply (f_equal snd) in H. unfold cmul, conj in H. cbn [fst snd] in *. f_equal. lra. }
  assert (R3 : root 16 1 (mu * 3) = (snd (root 16 1 (mu * 4)) * snd (root 16 1 (mu * 1)), snd (root 16 1 (mu * 4)) * fst (root 16 1 (mu * 1)))%R).
  { change 3 with (4 - 1). rewrite power_sub, R4. unfold cmul, conj. cbn [fst snd]. f_equal; ring. }
  assert (R5 : root 16 1 (mu * 5) = (- (snd (root 16 1 (mu * 4)) * snd (root 16 1 (mu * 1))), snd (root 16 1 (mu * 4)) * fst (root 16 1 (mu * 1)))%R) by (change 5 with (8 - 3) at 1; rewrite power_sub, R8, R3; unfold cmul, conj; cbn [fst snd]; f_equal; ring).
  assert (R6 : root 16 1 (mu * 6) = (- fst (root 16 1 (mu * 2)), snd (root 16 1 (mu * 4)) * fst (root 16 1 (mu * 2)))%R) by (change 6 with (8 - 2) at 1; rewrite power_sub, R8, R2; unfold cmul, conj; cbn [fst snd]; f_equal; ring).
  assert (R7 : root 16 1 (mu * 7) = (- fst (root 16 1 (mu * 1)), snd (root 16 1 (mu * 1)))%R) by (change 7 with (8 - 1) at 1; rewrite power_sub, R8, R1; unfold cmul, conj; cbn [fst snd]; f_equal; ring).
  apply table_case; [lia|]. intros r Hr. range_cases r Hr 16%nat; number_case; cbn [nth tab16].
  - transitivity (conj (root 16 1 (mu * 1))); [exact (power_refl 16 mu ltac:(lia) 1)|f_equal; exact R1].
  - transitivity (conj (root 16 1 (mu * 2))); [exact (power_refl 16 mu ltac:(lia) 2)|f_equal; exact R2].
  - transitivity (conj (root 16 1 (mu * 3))); [exact (power_refl 16 mu ltac:(lia) 3)|f_equal; exact R3].
  - transitivity (conj (root 16 1 (mu * 4))); [exact (power_refl 16 mu ltac:(lia) 4)|f_equal; exact R4].
  - transitivity (conj (root 16 1 (mu * 5))); [exact (power_refl 16 mu ltac:(lia) 5)|f_equal; exact R5].
  - transitivity (conj (root 16 1 (mu * 6))); [exact (power_refl 16 mu ltac:(lia) 6)|f_equal; exact R6].
  - transitivity (conj (root 16 1 (mu * 7))); [exact (power_refl 16 mu ltac:(lia) 7)|f_equal; exact R7].
  - exact R8.
  - exact R7.
  - exact R6.
  - exact R5.
  - exact R4.
  - exact R3.
  - exact R2.
  - exact R1.
  - apply power_0.
Qed.
Lemma cons16 {T} (p0 p1 p2 p3 p4 p5 p6 p7 p8 p9 p10 p11 p12 p13 p14 p15 q0 q1 q2 q3 q4 q5 q6 q7 q8 q9 q10 q11 q12 q13 q14 q15 : T) : p0 = q0 -> p1 = q1 -> p2 = q2 -> p3 = q3 -> p4 = q4 -> p5 = q5 -> p6 = q6 -> p7 = q7 -> p8 = q8 -> p9 = q9 -> p10 = q10 -> p11 = q11 -> p12 = q12 -> p13 = q13 -> p14 = q14 -> p15 = q15 -> [p0; p1; p2; p3; p4; p5; p6; p7; p8; p9; p10; p11; p12; p13; p14; p15] = [q0; q1; q2; q3; q4; q5; q6; q7; q8; q9; q10; q11; q12; q13; q14; q15].
Proof. intros; subst; reflexivity. Qed.
Lemma module16_ok mu z : In mu [1; 3; 5; 7; 9; 11; 13; 15] -> module16 mu z = rotated 16 mu z.
Proof.
  intros Hmu. rewrite (rotated_table 16 mu _ z (tab16_ok mu Hmu)). unfold module16. rewrite (coeffs16_ok mu Hmu).
  generalize (fst (root 16 1 (mu * 1))). intros a.
  generalize (snd (root 16 1 (mu * 1))). intros b.
  generalize (fst (root 16 1 (mu * 2))). intros d.
  generalize (snd (root 16 1 (mu * 4))). intros c.
  unfold by_table. change (range 0 16) with [0; 1; 2; 3; 4; 5; 6; 7; 8; 9; 10; 11; 12; 13; 14; 15]. change (Z.to_nat 16) with 16%nat. cbn [map total].
  change (Z.of_nat 0) with 0. change (Z.of_nat 1) with 1. change (Z.of_nat 2) with 2. change (Z.of_nat 3) with 3. change (Z.of_nat 4) with 4. change (Z.of_nat 5) with 5. change (Z.of_nat 6) with 6. change (Z.of_nat 7) with 7. change (Z.of_nat 8) with 8. change (Z.of_nat 9) with 9. change (Z.of_nat 10) with 10. change (Z.of_nat 11) with 11. change (Z.of_nat 12) with 12. change (Z.of_nat 13) with 13. change (Z.of_nat 14) with 14. change (Z.of_nat 15) with 15.
  generalize (z 0); intros [z0r z0i]. generalize (z 1); intros [z1r z1i]. generalize (z 2); intros [z2r z2i]. generalize (z 3); intros [z3r z3i]. generalize (z 4); intros [z4r z4i]. generalize (z 5); intros [z5r z5i]. generalize (z 6); intros [z6r z6i]. generalize (z 7); intros [z7r z7i]. generalize (z 8); intros [z8r z8i]. generalize (z 9); intros [z9r z9i]. generalize (z 10); intros [z10r z10i]. generalize (z 11); intros [z11r z11i]. generalize (z 12); intros [z12r z12i]. generalize (z 13); intros [z13r z13i]. generalize (z 14); intros [z14r z14i]. generalize (z 15); intros [z15r z15i].
  cbv -[Rplus Rmult Ropp Rminus Rinv IZR Rdiv]. apply cons16; apply f_equal2; ring.
Qed.
