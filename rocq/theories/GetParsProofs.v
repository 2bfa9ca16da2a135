(** Proofs about the parameter parser. *)
From Coq Require Import Ascii String.
From Coq Require Import ZArith List Bool Arith Lia.
From Verif Require Import ListAux ParSpec GetPars.
Import ListNotations.
Local Open Scope Z_scope.

Lemma aeqb_spec a b : reflect (a = b) (Ascii.eqb a b).
Proof. apply Ascii.eqb_spec. Qed.
Lemma same_name_spec a b : same_name a b = true <-> a = b.
Proof. unfold same_name. destruct (list_eq_dec ascii_dec a b); split; congruence. Qed.

(* ---------------- tables ---------------- *)
Definition pair_of (a : arg) : list (text * text) := match a with Setting n v => [(n, v)] | Other _ => [] end.
Definition pairs (args : list arg) : list (text * text) := flat_map pair_of args.

Lemma split_eq_none w : ~ In EQUAL w -> split_eq w = None.
Proof.
  induction w as [|c w IH]; intros H; [reflexivity|]. cbn [split_eq].
  destruct (aeqb_spec c EQUAL) as [E|_]; [exfalso; apply H; left; exact E|].
  rewrite IH; [reflexivity|]. intros X. apply H. right. exact X.
Qed.
Lemma split_eq_some n v : ~ In EQUAL n -> split_eq (n ++ EQUAL :: v) = Some (n, v).
Proof.
  induction n as [|c n IH]; intros H; [cbn; reflexivity|]. cbn [split_eq app].
  destruct (aeqb_spec c EQUAL) as [E|_]; [exfalso; apply H; left; exact E|].
  rewrite IH; [reflexivity|]. intros X. apply H. right. exact X.
Qed.
Lemma tabulate_app a b : tabulate (a ++ b) = tabulate a ++ tabulate b.
Proof. induction a as [|x a IH]; [reflexivity|]. cbn. rewrite IH. destruct (split_eq x); reflexivity. Qed.
Lemma tabulate_written args : Forall arg_ok args -> tabulate (map written args) = pairs args.
Proof.
  induction 1 as [|a args H _ IH]; [reflexivity|]. cbn [map tabulate]. unfold pairs in *. cbn [flat_map]. rewrite <- IH.
  destruct a as [n v|w]; cbn [written pair_of arg_ok app] in *.
  - rewrite split_eq_some by exact H. reflexivity.
  - rewrite split_eq_none by exact H. reflexivity.
Qed.

(** every argument vector is a list of settings and other words *)
Lemma arg_of w : exists a, arg_ok a /\ written a = w.
Proof.
  induction w as [|c w (a & H & <-)]; [exists (Other []); split; [intros []|reflexivity]|].
  destruct (ascii_dec c EQUAL) as [->|Hc].
  - exists (Setting [] (written a)). split; [intros []|reflexivity].
  - destruct a as [n v|x]; [exists (Setting (c :: n) v)|exists (Other (c :: x))]; (split; [|reflexivity]);
      cbn in *; intros [X|X]; auto.
Qed.

(** names and values of a table *)
Definition vals (name : text) (t : list (text * text)) : list text :=
  flat_map (fun '(a, v) => if same_name name a then [v] else []) t.
Lemma vals_pairs name args : vals name (pairs args) = occurrences name args.
Proof.
  induction args as [|a args IH]; [reflexivity|]. unfold vals, pairs, occurrences in *. cbn [flat_map]. rewrite flat_map_app. f_equal; [|exact IH].
  destruct a as [n v|w]; [|reflexivity]. cbn. unfold same_name.
  destruct (list_eq_dec ascii_dec name n), (list_eq_dec ascii_dec n name); try congruence; reflexivity.
Qed.

Lemma index_last_spec name t : forall i found,
  match last_of (vals name t) with
  | Some v => exists j, index_last i name t found = Z.of_nat (i + j) /\ (j < length t)%nat /\ nth j t ([], []) = (name, v)
  | None => index_last i name t found = found
  end.
Proof.
  induction t as [|[a v] t IH]; intros i found; [reflexivity|]. cbn [index_last vals flat_map]. fold (vals name t).
  specialize (IH (S i) (if same_name name a then Z.of_nat i else found)).
  unfold last_of in *. rewrite rev_app_distr. destruct (rev (vals name t)) as [|x r] eqn:E; cbn [app].
  - destruct (same_name name a) eqn:SN; cbn [rev app]; [|exact IH]. exists 0%nat. rewrite Nat.add_0_r. split; [exact IH|]. split; [cbn; lia|].
    apply same_name_spec in SN. subst. reflexivity.
  - destruct IH as (j & H1 & H2 & H3). exists (S j). split; [rewrite H1; f_equal; lia|]. split; [cbn; lia|exact H3].
Qed.
Lemma index_nth_spec name t : forall i n, 0 < n ->
  match nth_error (vals name t) (Z.to_nat (n - 1)) with
  | Some v => exists j, index_nth i n name t = Z.of_nat (i + j) /\ (j < length t)%nat /\ nth j t ([], []) = (name, v)
  | None => index_nth i n name t = -1
  end.
Proof.
  induction t as [|[a v] t IH]; intros i n Hn; [destruct (Z.to_nat (n - 1)); reflexivity|]. cbn [index_nth vals flat_map]. fold (vals name t).
  destruct (same_name name a) eqn:SN; cbn [app].
  - destruct (Z.eqb_spec (n - 1) 0) as [E|E].
    + rewrite E. cbn. exists 0%nat. rewrite Nat.add_0_r. split; [reflexivity|]. split; [lia|]. apply same_name_spec in SN. subst. reflexivity.
    + assert (Q : Z.to_nat (n - 1) = S (Z.to_nat (n - 1 - 1))) by lia. rewrite Q. cbn [nth_error].
      specialize (IH (S i) (n - 1) ltac:(lia)). destruct (nth_error (vals name t) (Z.to_nat (n - 1 - 1))) as [x|]; [|exact IH].
      destruct IH as (j & H1 & H2 & H3). exists (S j). split; [rewrite H1; f_equal; lia|]. split; [cbn; lia|exact H3].
  - specialize (IH (S i) n Hn). destruct (nth_error (vals name t) (Z.to_nat (n - 1))) as [x|]; [|exact IH].
    destruct IH as (j & H1 & H2 & H3). exists (S j). split; [rewrite H1; f_equal; lia|]. split; [cbn; lia|exact H3].
Qed.
Lemma index_neg name t : forall i n, n < 0 -> index_nth i n name t = -1.
Proof.
  induction t as [|[a v] t IH]; intros i n Hn; [reflexivity|]. cbn [index_nth]. destruct (same_name name a); [|apply IH; exact Hn].
  destruct (Z.eqb_spec (n - 1) 0); [lia|]. apply IH. lia.
Qed.
Lemma getparindex_spec n name t :
  match asked n (vals name t) with
  | Some v => exists j, getparindex n name t = Z.of_nat j /\ asciival t (Z.of_nat j) = v
  | None => getparindex n name t = -1
  end.
Proof.
  unfold asked, getparindex. destruct (Z.eqb_spec n 0) as [->|Hn].
  - pose proof (index_last_spec name t 0 (-1)) as H. destruct (last_of (vals name t)) as [v|]; [|exact H].
    destruct H as (j & H1 & H2 & H3). exists j. split; [exact H1|]. unfold asciival. rewrite Nat2Z.id. exact (f_equal snd H3).
  - destruct (Z.ltb_spec 0 n) as [Hp|Hp].
    + pose proof (index_nth_spec name t 0 n Hp) as H. destruct (nth_error (vals name t) (Z.to_nat (n - 1))) as [v|]; [|exact H].
      destruct H as (j & H1 & H2 & H3). exists j. split; [exact H1|]. unfold asciival. rewrite Nat2Z.id. exact (f_equal snd H3).
    + apply index_neg. lia.
Qed.
Lemma count_vals name t : fold_right (fun '(a, _) k => (if same_name name a then 1 else 0) + k) 0 t = Z.of_nat (length (vals name t)).
Proof.
  induction t as [|[a v] t IH]; [reflexivity|]. cbn [fold_right vals flat_map]. fold (vals name t). rewrite IH, app_length, Nat2Z.inj_add.
  destruct (same_name name a); reflexivity.
Qed.

(* ---------------- the parameter file name ---------------- *)
Definition nonempty (v : text) : bool := match v with [] => false | _ => true end.
Lemma last_of_app {A} (a b : list A) : last_of (a ++ b) = match last_of b with Some x => Some x | None => last_of a end.
Proof. unfold last_of. rewrite rev_app_distr. destruct (rev b); reflexivity. Qed.
Lemma prefix_par a f : arg_ok a -> firstn 4 (written a) = str "par=" -> skipn 4 (written a) = f -> a = Setting (lit "par") f.
Proof.
  intros H E F. assert (W : written a = str "par=" ++ f) by (rewrite <- (firstn_skipn 4 (written a)), E, F; reflexivity).
  destruct a as [n v|w]; cbn [written arg_ok] in *.
  - assert (S1 : split_eq (n ++ [EQUAL] ++ v) = Some (n, v)) by (apply split_eq_some; exact H).
    change ([ascii_of_nat 61]) with [EQUAL] in W. rewrite W in S1. cbn in S1. inversion S1. subst. reflexivity.
  - exfalso. apply H. subst w. right. right. right. left. reflexivity.
Qed.
Lemma pfname_spec args : Forall arg_ok args -> pfname_from (map written args) = named_file args.
Proof.
  unfold named_file. induction 1 as [|a args H _ IH]; [reflexivity|]. cbn [map pfname_from]. rewrite IH.
  unfold occurrences. cbn [flat_map]. rewrite filter_app, last_of_app. fold (occurrences (lit "par") args).
  unfold text, cstring in *. match goal with |- match ?x with Some _ => _ | None => _ end = _ => destruct x; [reflexivity|] end.
  destruct (list_eq_dec ascii_dec (firstn 4 (written a)) (str "par=")) as [E|E].
  - pose proof (prefix_par a _ H E eq_refl) as P. set (f := skipn 4 (written a)) in *. clearbody f. subst a. cbn. destruct f; reflexivity.
  - destruct a as [n v|w]; [|reflexivity]. cbn [is_name]. destruct (list_eq_dec ascii_dec n (lit "par")) as [->|_]; [|reflexivity].
    exfalso. apply E. reflexivity.
Qed.

(* ---------------- the parameter file ---------------- *)
Fixpoint odd_quotes (l : text) : bool := match l with [] => false | c :: r => xorb (Ascii.eqb c QUOTE) (odd_quotes r) end.
Lemma toggle q c : (if Ascii.eqb c QUOTE then negb q else q) = xorb q (Ascii.eqb c QUOTE).
Proof. destruct (Ascii.eqb c QUOTE), q; reflexivity. Qed.

Lemma white_is c : white c -> iswhite c = true /\ Ascii.eqb c QUOTE = false /\ c <> NUL.
Proof. intros [-> |[-> | ->]]; (split; [reflexivity|]); split; try reflexivity; discriminate. Qed.
Lemma plain_is c : plain c -> iswhite c = false /\ Ascii.eqb c QUOTE = false /\ Ascii.eqb c NUL = false.
Proof.
  intros (H1 & H2 & H3). split; [|split].
  - unfold iswhite. destruct (aeqb_spec c SPC) as [->|]; [exfalso; apply H1; left; reflexivity|].
    destruct (aeqb_spec c TAB) as [->|]; [exfalso; apply H1; right; left; reflexivity|].
    destruct (aeqb_spec c LF) as [->|]; [exfalso; apply H1; right; right; reflexivity|]. reflexivity.
  - destruct (aeqb_spec c QUOTE); [contradiction|reflexivity].
  - destruct (aeqb_spec c NUL); [contradiction|reflexivity].
Qed.
Lemma quoted_is c : in_quotes c -> Ascii.eqb c QUOTE = false /\ Ascii.eqb c NUL = false.
Proof. intros (H2 & H3). split; [destruct (aeqb_spec c QUOTE)|destruct (aeqb_spec c NUL)]; try contradiction; reflexivity. Qed.

Lemma loop1_cons q p c r : w2n_loop1 q p (c :: r) =
  let q' := xorb q (Ascii.eqb c QUOTE) in
  let c' := if q' then c else if iswhite c then NUL else c in
  let k := if q' then 0%nat else if iswhite c then 0%nat else if Ascii.eqb p NUL then 1%nat else 0%nat in
  (c' :: fst (w2n_loop1 q' c' r), (k + snd (w2n_loop1 q' c' r))%nat).
Proof.
  cbn [w2n_loop1]. rewrite toggle. cbv zeta. destruct (xorb q (Ascii.eqb c QUOTE)); [destruct (w2n_loop1 true c r); reflexivity|].
  destruct (iswhite c); [destruct (w2n_loop1 false NUL r); reflexivity|].
  destruct (Ascii.eqb p NUL), (w2n_loop1 false c r); reflexivity.
Qed.

Lemma loop1_snoc_white l c : white c -> forall q p, xorb q (odd_quotes l) = false ->
  w2n_loop1 q p (l ++ [c]) = (fst (w2n_loop1 q p l) ++ [NUL], snd (w2n_loop1 q p l)).
Proof.
  intros Hc. destruct (white_is c Hc) as (C1 & C2 & C3). induction l as [|x l IH]; intros q p H.
  - cbn [app]. rewrite loop1_cons. cbv zeta. rewrite C1, C2. cbn [odd_quotes] in H. rewrite xorb_false_r in *. subst q. reflexivity.
  - cbn [app]. rewrite !(loop1_cons _ _ x). cbv zeta. cbn [odd_quotes] in H. rewrite <- xorb_assoc in H.
    rewrite (IH _ _ H). cbn [fst snd app]. reflexivity.
Qed.
Lemma loop1_quotes l : forall q p, odd_quotes (fst (w2n_loop1 q p l)) = odd_quotes l.
Proof.
  induction l as [|x l IH]; intros q p; [reflexivity|]. rewrite loop1_cons. cbv zeta. cbn [fst odd_quotes]. rewrite IH. f_equal.
  destruct (xorb q (Ascii.eqb x QUOTE)); [reflexivity|]. destruct (iswhite x) eqn:W; [|reflexivity].
  assert (Ascii.eqb x QUOTE = false) as ->; [|reflexivity].
  destruct (aeqb_spec x QUOTE) as [->|]; [discriminate W|reflexivity].
Qed.

Lemma loop2_cons q c r last : w2n_loop2 q (c :: r) last =
  if xorb q (Ascii.eqb c QUOTE) then
    if Ascii.eqb (hd last r) QUOTE then NUL :: match r with [] => [] | _ :: r' => NUL :: w2n_loop2 false r' last end
    else hd last r :: w2n_loop2 true r last
  else c :: w2n_loop2 false r last.
Proof. cbn [w2n_loop2]. rewrite toggle. reflexivity. Qed.

Lemma loop2_snoc_nul last x : forall n l q, (length l <= n)%nat -> xorb q (odd_quotes l) = false ->
  w2n_loop2 q (l ++ [NUL]) x = w2n_loop2 q l last ++ [NUL].
Proof.
  induction n as [|n IH]; intros l q Hn H; (destruct l as [|c l]; [cbn [odd_quotes] in H; rewrite xorb_false_r in H; subst q; reflexivity|]); [cbn in Hn; lia|].
  cbn [app]. rewrite !loop2_cons. cbn [odd_quotes] in H. rewrite <- xorb_assoc in H. cbn [length] in Hn.
  destruct (xorb q (Ascii.eqb c QUOTE)) eqn:Q.
  - destruct l as [|d l]; [discriminate H|]. cbn [hd app]. cbn [odd_quotes] in H.
    destruct (Ascii.eqb d QUOTE) eqn:D.
    + cbn [app]. f_equal. f_equal. apply (IH l false); [cbn in Hn; lia|]. destruct (odd_quotes l); [discriminate H|reflexivity].
    + cbn [app]. f_equal. rewrite <- (IH (d :: l) true); [reflexivity|cbn [length] in *; lia|]. cbn [odd_quotes]. rewrite D. exact H.
  - cbn [app]. f_equal. apply (IH l false); [lia|exact H].
Qed.

Lemma odd_quotes_app a b : odd_quotes (a ++ b) = xorb (odd_quotes a) (odd_quotes b).
Proof. induction a as [|c a IH]; [symmetry; apply xorb_false_l|]. cbn. rewrite IH, xorb_assoc. reflexivity. Qed.
Lemma plain_quotes w : Forall plain w -> odd_quotes w = false.
Proof. induction 1 as [|c w H _ IH]; [reflexivity|]. cbn [odd_quotes]. destruct (plain_is c H) as (_ & -> & _). rewrite IH. reflexivity. Qed.
Lemma inq_quotes w : Forall in_quotes w -> odd_quotes w = false.
Proof. induction 1 as [|c w H _ IH]; [reflexivity|]. cbn [odd_quotes]. destruct (quoted_is c H) as (-> & _). rewrite IH. reflexivity. Qed.
Lemma word_quotes a w : word_of a w -> odd_quotes w = false.
Proof.
  intros [a' _ H|n v H1 H2]; [apply plain_quotes; exact H|]. rewrite !odd_quotes_app, (plain_quotes n H1), (inq_quotes v H2). reflexivity.
Qed.
Lemma file_quotes l t : file_of l t -> odd_quotes t = false.
Proof.
  induction 1 as [|c l t H _ IH|a w c l t Hw H _ IH]; [reflexivity| |].
  - cbn [odd_quotes]. destruct (white_is c H) as (_ & -> & _). rewrite !xorb_false_l. exact IH.
  - rewrite odd_quotes_app, (word_quotes a w Hw). cbn [odd_quotes]. destruct (white_is c H) as (_ & -> & _). rewrite !xorb_false_l. exact IH.
Qed.
Lemma file_end l t : file_of l t -> t = [] \/ exists b c, t = b ++ [c] /\ white c.
Proof.
  induction 1 as [|c l t H _ IH|a w c l t Hw H _ IH]; [left; reflexivity| |]; right.
  - destruct IH as [->|(b & d & -> & Hd)]; [exists [], c; auto|exists (c :: b), d; auto].
  - destruct IH as [->|(b & d & -> & Hd)]; [exists w, c; auto|exists (w ++ c :: b), d; rewrite <- app_assoc; auto].
Qed.

(** without the special treatment of the last position *)
Fixpoint starts (prev : ascii) (l : text) : list text :=
  match l with
  | [] => []
  | c :: r => (if negb (Ascii.eqb c NUL) && Ascii.eqb prev NUL then [cstr (c :: r)] else []) ++ starts c r
  end.
Lemma starts_snoc l : forall p, word_starts p (l ++ [NUL]) = starts p (l ++ [NUL]).
Proof.
  induction l as [|c l IH]; intros p; [reflexivity|]. cbn [app starts]. rewrite <- IH.
  destruct (l ++ [NUL]) eqn:E; [destruct l; discriminate|]. reflexivity.
Qed.

Definition cooked (t : text) : text := w2n_loop2 false (fst (w2n_loop1 false NUL t)) NUL.

Lemma white2null_file l t : file_of l t ->
  word_starts NUL (fst (white2null t)) = starts NUL (cooked t) /\ snd (white2null t) = snd (w2n_loop1 false NUL t).
Proof.
  intros F. destruct (file_end l t F) as [->|(b & c & E & Hc)]; [split; reflexivity|].
  pose proof (file_quotes l t F) as Q. rewrite E in Q. rewrite odd_quotes_app in Q. cbn [odd_quotes] in Q. destruct (white_is c Hc) as (_ & C2 & _). rewrite C2 in Q.
  assert (Qb : odd_quotes b = false) by (destruct (odd_quotes b); [discriminate Q|reflexivity]).
  unfold white2null. destruct t as [|c0 t0] eqn:T; [destruct b; discriminate E|]. rewrite <- T in *. clear T. rewrite E.
  rewrite removelast_last, last_last. unfold cooked. rewrite (loop1_snoc_white b c Hc false NUL) by (rewrite Qb; reflexivity).
  destruct (w2n_loop1 false NUL b) as [l1 k] eqn:L1. cbn [fst snd]. split; [|reflexivity].
  rewrite starts_snoc. f_equal. symmetry. apply (loop2_snoc_nul c NUL (length l1)); [lia|].
  change l1 with (fst (l1, k)). rewrite <- L1, loop1_quotes, Qb. reflexivity.
Qed.

Lemma loop1_word_tail w : Forall plain w -> forall p r, Ascii.eqb p NUL = false ->
  w2n_loop1 false p (w ++ r) = (w ++ fst (w2n_loop1 false (List.last w p) r), snd (w2n_loop1 false (List.last w p) r)) /\
  Ascii.eqb (List.last w p) NUL = false.
Proof.
  induction 1 as [|c w H F IH]; intros p r Hp; [cbn [app List.last]; destruct (w2n_loop1 false p r); auto|].
  destruct (plain_is c H) as (C1 & C2 & C3). cbn [app]. rewrite loop1_cons. cbv zeta. rewrite C1, C2, Hp. cbn [xorb].
  destruct (IH c r C3) as [E1 E2]. rewrite E1. cbn [fst snd Nat.add].
  assert (L : List.last (c :: w) p = List.last w c).
  { clear. revert p c. induction w as [|a w IH]; intros; [reflexivity|]. change (List.last (c :: a :: w) p) with (List.last (a :: w) p).
    rewrite (IH p a). symmetry. change (List.last (a :: w) c) with (match w with [] => a | _ => List.last w c end).
    destruct w as [|b w]; [reflexivity|]. rewrite <- (IH c a). reflexivity. }
  rewrite L. split; [reflexivity|exact E2].
Qed.
Lemma loop1_inq v : Forall in_quotes v -> forall p r, Ascii.eqb p NUL = false -> exists p',
  w2n_loop1 true p (v ++ r) = (v ++ fst (w2n_loop1 true p' r), snd (w2n_loop1 true p' r)) /\ Ascii.eqb p' NUL = false.
Proof.
  induction 1 as [|c v H F IH]; intros p r Hp; [exists p; cbn [app]; destruct (w2n_loop1 true p r); auto|].
  destruct (quoted_is c H) as (C2 & C3). cbn [app]. rewrite loop1_cons. cbv zeta. rewrite C2. cbn [xorb].
  destruct (IH c r C3) as (p' & -> & E). exists p'. auto.
Qed.
Lemma loop1_first w r : w <> [] -> Forall plain w -> exists p,
  w2n_loop1 false NUL (w ++ r) = (w ++ fst (w2n_loop1 false p r), S (snd (w2n_loop1 false p r))) /\ Ascii.eqb p NUL = false.
Proof.
  intros N F. destruct w as [|x w]; [congruence|]. destruct (plain_is x (Forall_inv F)) as (X1 & X2 & X3).
  cbn [app]. rewrite loop1_cons. cbv zeta. rewrite X1, X2. cbn [xorb]. destruct (loop1_word_tail w (Forall_inv_tail F) x r X3) as [E1 E2].
  exists (List.last w x). rewrite E1. split; [reflexivity|exact E2].
Qed.
Lemma name_plain n : Forall plain n -> Forall plain (n ++ [EQUAL]).
Proof. intros H. apply Forall_app. split; [exact H|]. constructor; [|constructor]. unfold plain, white. intuition discriminate. Qed.
Lemma quoted_assoc n v r : (n ++ [EQUAL; QUOTE] ++ v ++ [QUOTE]) ++ r = (n ++ [EQUAL]) ++ QUOTE :: v ++ QUOTE :: r.
Proof. rewrite <- !app_assoc. reflexivity. Qed.

Lemma loop1_word a w c t : word_of a w -> white c ->
  w2n_loop1 false NUL (w ++ c :: t) = (w ++ NUL :: fst (w2n_loop1 false NUL t), S (snd (w2n_loop1 false NUL t))).
Proof.
  intros H Hc. destruct (white_is c Hc) as (C1 & C2 & C3).
  assert (TAIL : forall p, w2n_loop1 false p (c :: t) = (NUL :: fst (w2n_loop1 false NUL t), snd (w2n_loop1 false NUL t))).
  { intros p. rewrite loop1_cons. cbv zeta. rewrite C1, C2. reflexivity. }
  destruct H as [a' N F|n v F1 F2].
  - destruct (loop1_first (written a') (c :: t) N F) as (p & -> & _). rewrite TAIL. reflexivity.
  - change ([ascii_of_nat 61; ascii_of_nat 34]) with [EQUAL; QUOTE]. change [ascii_of_nat 34] with [QUOTE]. rewrite !quoted_assoc.
    destruct (loop1_first (n ++ [EQUAL]) (QUOTE :: v ++ QUOTE :: c :: t)) as (p & -> & Hp); [destruct n; discriminate|apply name_plain; exact F1|].
    rewrite (loop1_cons false p QUOTE). cbv zeta. change (Ascii.eqb QUOTE QUOTE) with true. cbn [xorb].
    destruct (loop1_inq v F2 QUOTE (QUOTE :: c :: t) eq_refl) as (p' & -> & Hp'). rewrite (loop1_cons true p' QUOTE). cbv zeta.
    change (Ascii.eqb QUOTE QUOTE) with true. change (xorb true true) with false. change (iswhite QUOTE) with false. cbv iota.
    rewrite Hp', TAIL. reflexivity.
Qed.

Lemma loop2_plain w r : Forall plain w -> w2n_loop2 false (w ++ r) NUL = w ++ w2n_loop2 false r NUL.
Proof.
  induction 1 as [|c w H F IH]; [reflexivity|]. cbn [app]. rewrite loop2_cons. destruct (plain_is c H) as (_ & -> & _). cbn [xorb]. rewrite IH. reflexivity.
Qed.
Lemma loop2_quoted v r : Forall in_quotes v -> forall c q, xorb q (Ascii.eqb c QUOTE) = true ->
  w2n_loop2 q (c :: v ++ QUOTE :: r) NUL = v ++ NUL :: NUL :: w2n_loop2 false r NUL.
Proof.
  induction 1 as [|d v H F IH]; intros c q E; rewrite loop2_cons, E; cbn [app hd].
  - reflexivity.
  - destruct (quoted_is d H) as (D & _). rewrite D. f_equal. apply IH. rewrite D. reflexivity.
Qed.
Lemma loop2_nul r : w2n_loop2 false (NUL :: r) NUL = NUL :: w2n_loop2 false r NUL.
Proof. reflexivity. Qed.
Lemma loop2_word a w r : word_of a w -> exists k, w2n_loop2 false (w ++ NUL :: r) NUL = written a ++ repeat NUL k ++ NUL :: w2n_loop2 false r NUL.
Proof.
  intros [a' N F|n v F1 F2].
  - exists 0%nat. rewrite loop2_plain by exact F. reflexivity.
  - exists 2%nat. change ([ascii_of_nat 61; ascii_of_nat 34]) with [EQUAL; QUOTE]. change [ascii_of_nat 34] with [QUOTE]. rewrite !quoted_assoc.
    rewrite loop2_plain by (apply name_plain; exact F1). rewrite loop2_quoted by (auto; reflexivity). rewrite loop2_nul.
    cbn [written repeat app]. rewrite <- !app_assoc. reflexivity.
Qed.
Lemma word_written a w : word_of a w -> written a <> [] /\ Forall (fun c => Ascii.eqb c NUL = false) (written a).
Proof.
  intros [a' N F|n v F1 F2].
  - split; [exact N|]. eapply Forall_impl; [|exact F]. intros c H. apply (plain_is c H).
  - split; [destruct n; discriminate|]. cbn [written]. rewrite !Forall_app. split; [|split].
    + eapply Forall_impl; [|exact F1]. intros c H. apply (plain_is c H).
    + repeat constructor.
    + eapply Forall_impl; [|exact F2]. intros c H. apply (quoted_is c H).
Qed.
Lemma cstr_app w r : Forall (fun c => Ascii.eqb c NUL = false) w -> cstr (w ++ NUL :: r) = w.
Proof. induction 1 as [|c w H F IH]; [reflexivity|]. cbn [app cstr]. rewrite H, IH. reflexivity. Qed.
Lemma starts_mid w r : Forall (fun c => Ascii.eqb c NUL = false) w -> forall p, Ascii.eqb p NUL = false -> starts p (w ++ NUL :: r) = starts NUL r.
Proof.
  induction 1 as [|c w H F IH]; intros p Hp; cbn [app starts]; [reflexivity|]. rewrite H, Hp. cbn. apply IH. exact H.
Qed.
Lemma starts_nuls k r : starts NUL (repeat NUL k ++ r) = starts NUL r.
Proof. induction k as [|k IH]; [reflexivity|]. cbn [repeat app starts]. exact IH. Qed.
Lemma starts_word w k r : w <> [] -> Forall (fun c => Ascii.eqb c NUL = false) w ->
  starts NUL (w ++ repeat NUL k ++ NUL :: r) = w :: starts NUL r.
Proof.
  intros N F. assert (exists x, repeat NUL k ++ NUL :: r = NUL :: x /\ starts NUL x = starts NUL r) as (x & -> & <-).
  { destruct k as [|k]; [exists r; auto|]. exists (repeat NUL k ++ NUL :: r). split; [reflexivity|]. rewrite starts_nuls. reflexivity. }
  destruct w as [|c w]; [congruence|]. pose proof (Forall_inv F) as Hc. cbv beta in Hc. cbn [app starts]. rewrite Hc.
  change (negb false && Ascii.eqb NUL NUL) with true. cbv iota. change (c :: w ++ NUL :: x) with ((c :: w) ++ NUL :: x).
  rewrite cstr_app by exact F. cbn [app]. f_equal. apply starts_mid; [exact (Forall_inv_tail F)|exact Hc].
Qed.

Lemma cooked_words l t : file_of l t -> starts NUL (cooked t) = map written l /\ snd (w2n_loop1 false NUL t) = length l.
Proof.
  unfold cooked. induction 1 as [|c l t H _ IH|a w c l t Hw H _ IH]; [split; reflexivity| |].
  - destruct (white_is c H) as (C1 & C2 & _). rewrite loop1_cons. cbv zeta. rewrite C1, C2. cbn [xorb fst snd Nat.add]. rewrite loop2_nul. exact IH.
  - rewrite (loop1_word a w c t Hw H). cbn [fst snd length map]. destruct IH as [I1 I2]. rewrite I2. split; [|reflexivity].
    destruct (loop2_word a w (fst (w2n_loop1 false NUL t)) Hw) as (k & ->). destruct (word_written a w Hw) as [N F].
    rewrite starts_word by assumption. rewrite I1. reflexivity.
Qed.

Theorem file_words l t : file_of l t -> word_starts NUL (fst (white2null t)) = map written l /\ snd (white2null t) = length l.
Proof.
  intros F. destruct (white2null_file l t F) as [-> ->]. apply cooked_words. exact F.
Qed.

Theorem init_table fs args all : Forall arg_ok args -> sees fs args all -> getparinit fs (map written args) = Some (pairs all).
Proof.
  intros A S. unfold getparinit. rewrite pfname_spec by exact A. unfold sees in S. destruct (named_file args) as [f|].
  - destruct S as (content & fargs & F1 & F2 & F3 & ->). rewrite F1. destruct (file_words fargs content F2) as [W1 W2].
    destruct (white2null content) as [buf k]. cbn [fst snd] in *. rewrite W1, W2, map_length, Nat.eqb_refl.
    rewrite tabulate_app, !tabulate_written by assumption. unfold pairs. rewrite flat_map_app. reflexivity.
  - subst all. cbn [app]. rewrite tabulate_written by exact A. reflexivity.
Qed.
